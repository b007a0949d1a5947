(** Loading a whole input file. *)
From Coq Require Import String Ascii List ZArith Bool Arith Lia.
From Verif Require Import Base SpecModel SimModel LoaderModel LoaderSpec LoaderProofs LoaderProofs2.
From Verif Require PpModel.
Import PpModel(xml(..), Name, Star, QPath, kids_of, find, find_path, nmatches, get_string, sub_tree, trim, ltrim, rtrim, is_space).
Import ListNotations.
Local Open Scope string_scope.

(** ** Loops over elements *)
Lemma nth_app_last_gen {A} (pre : list A) y l : nth_error (pre ++ y :: l) (List.length pre) = Some y.
Proof. rewrite nth_error_app2, Nat.sub_diag by lia. reflexivity. Qed.
Lemma collect_ext {A B} (f g : A -> M B) l : (forall x s, In x l -> f x s = g x s) -> forall s, collect f l s = collect g l s.
Proof.
  induction l as [|x l IH]; intros H s; simpl; auto. unfold bind. rewrite H by (simpl; auto).
  destruct (g x s) as [[b|e| |] s1]; auto. rewrite IH by (intros; apply H; simpl; auto). reflexivity.
Qed.
Lemma collect_seq {B} x q (f : xml -> M B) : forall l pre s, find x q = Ok (pre ++ l)%list ->
  collect (fun i => qe <- lift (sub_tree x q i) ;; f qe) (seq (List.length pre) (List.length l)) s = collect f l s.
Proof.
  induction l as [|y l IH]; intros pre s H; [reflexivity|]. simpl seq. cbn [collect].
  assert (E : forall s, (qe <- lift (sub_tree x q (List.length pre)) ;; f qe) s = f y s).
  { intro s'. unfold sub_tree. rewrite H, nth_app_last_gen. reflexivity. }
  unfold bind at 1. rewrite E. unfold bind at 3. destruct (f y s) as [[b|e| |] s1]; auto.
  unfold bind. replace (S (List.length pre)) with (List.length (pre ++ [y])%list) by (rewrite app_length; simpl; lia).
  rewrite (IH (pre ++ [y])%list) by (rewrite H, <- app_assoc; reflexivity). reflexivity.
Qed.
Lemma over_collect {B} x l (f : xml -> M B) s : over x (path l) f s = collect f (find_path (map Name l) x) s.
Proof.
  unfold over. rewrite nmatches_ok. unfold bind, lift, ret.
  apply (collect_seq x (path l) f (find_path (map Name l) x) []). reflexivity.
Qed.

(** ** Prototypes *)
Notation class := (kind * bool * string)%type.
Definition proto_agent (n : Z) (m : proto * class) : agent :=
  mkA n (fst (fst (snd m))) (snd (fst (snd m))) (pr_name (fst m)) (snd (snd m)) (life_of (fst m)) (-1) None (-1) [] true.
Definition add1 (m : proto * class) (c : core) : core :=
  mkC (c_h c ++ [proto_agent (c_n c) m]) ((pr_name (fst m), List.length (c_h c)) :: c_p c) (c_n c + 1) (c_t c) (c_e c).
Inductive padd : list (proto * class) -> core -> core -> Prop :=
| padd_nil c : padd [] c c
| padd_cons m l c c' : sfind (pr_name (fst m)) (c_p c) = None -> padd l (add1 m c) c' -> padd (m :: l) c c'.
Lemma padd_app l1 l2 c c1 c2 : padd l1 c c1 -> padd l2 c1 c2 -> padd (l1 ++ l2) c c2.
Proof. induction 1; intro H2; simpl; [exact H2|]. constructor; auto. Qed.
Lemma padd_length l c c' : padd l c c' -> List.length (c_h c') = (List.length (c_h c) + List.length l)%nat.
Proof. induction 1; simpl; [lia|]. rewrite IHpadd. simpl. rewrite app_length. simpl. lia. Qed.

Lemma says_proto_reads x p : says_proto x p ->
  get_string x (path ["name"]) 0 = Ok (pr_name p) /\
  (forall cfg, sub_tree x (path ["config"]) 0 = Ok cfg -> element_name cfg 0 = Ok (pr_class p)) /\
  opt_int x (path ["lifetime"]) (-1) = Ok (life_of p).
Proof.
  intros (N & (pre & body & post & C & F) & L). split; [apply get_says, N|]. split.
  - intros cfg. unfold sub_tree. rewrite find_ok, find1, C. simpl. intro H. injection H as <-.
    unfold element_name, element_names. simpl kids_of.
    assert (E : flat_map (fun y => match y with XElem n _ => [n] | _ => [] end) (pre ++ XElem (pr_class p) body :: post)
      = pr_class p :: flat_map (fun y => match y with XElem n _ => [n] | _ => [] end) post).
    { clear C. induction F as [|y pre H F IH]; [reflexivity|]. simpl. destruct y as [n ky| |]; try exact IH. destruct (H n ky eq_refl). }
    rewrite E. reflexivity.
  - unfold opt_int, life_of. rewrite nmatches_ok, find1. cbn [rbind]. destruct (pr_life p) as [n|].
    + destruct L as (t & L & V). rewrite (get_says _ _ _ L). unfold says in L. rewrite L. simpl. apply lex_number, V.
    + rewrite L. reflexivity.
Qed.

Section File.
Variable beh : hook -> sim -> prog.
Variable cond : nat -> sim -> bool.
Variable make : spec -> result (kind * bool).
Variable read : spec -> xml -> result unit.
Variable fuel : nat.
Hypothesis Hquiet : quiet_code beh.
Variable x : xml.
Variable archs : list archetype.
Variable specs : list spec.
Hypothesis Harchs : says_archetypes x archs.
Hypothesis Hspecs : parse_specs x = Ok specs.
Hypothesis Hnone : forall c, make (mkSpec "" "" "" "") <> Ok c.

Lemma protos_loaded : forall qes ps s r s',
  Forall2 says_proto qes ps ->
  collect (load_proto make read specs) qes s = (Normal r, s') ->
  exists classes, Forall2 (fun p cls => class_of make archs (pr_class p) cls) ps classes /\
    r = combine (seq (List.length (c_h (core_of s))) (List.length ps)) qes /\
    padd (combine ps classes) (core_of s) (core_of s').
Proof.
  induction qes as [|qe qes IH]; intros ps s r s' F H; inversion F as [|? p ? ps' Hp F']; subst; cbn [collect] in H.
  - nv H. exists []. repeat split; constructor.
  - nb H. nb H. nv H. destruct (says_proto_reads _ _ Hp) as (R1 & R2 & R3).
    destruct (load_proto_core _ _ _ _ _ _ _ E _ _ _ R1 R2 R3) as (cls & Mk & -> & Fr & C).
    destruct (IH _ _ _ _ F' E0) as (classes & Fc & -> & Pa).
    exists ((cls, spec_str (spec_for specs (pr_class p))) :: classes). split; [|split].
    + constructor; [|exact Fc]. apply class_found with (1 := Harchs) (2 := Hspecs) (3 := Hnone) (4 := Mk).
    + cbn [combine List.length seq]. f_equal. rewrite C. cbn [c_h]. rewrite app_length. cbn [List.length]. rewrite Nat.add_1_r. reflexivity.
    + cbn [combine]. constructor; [exact Fr|]. rewrite C in Pa. exact Pa.
Qed.

(** ** Agents *)
Inductive built : list (string * option nat) -> core -> core -> Prop :=
| built_nil c : built [] c c
| built_cons e l c c1 c' : step_core e c c1 -> built l c1 c' -> built (e :: l) c c'.
Lemma built_app l1 l2 c c1 c2 : built l1 c c1 -> built l2 c1 c2 -> built (l1 ++ l2) c c2.
Proof. induction 1; intro H2; simpl; [exact H2|]. econstructor; eauto. Qed.
Lemma built_length l c c' : built l c c' -> List.length (c_h c') = (List.length (c_h c) + List.length l)%nat.
Proof.
  induction 1 as [|e l c c1 c' S B IH]; simpl; [lia|]. destruct S as (m & v & pid & _ & _ & _ & ->).
  rewrite IH. simpl. rewrite app_length. simpl. lia.
Qed.

Lemma entry_loop proto i : forall l s s' u,
  each (fun _ : nat => m <- build_agent beh cond fuel proto (Some i) ;; ret tt) l s = (Normal u, s') ->
  built (repeat (proto, Some i) (List.length l)) (core_of s) (core_of s').
Proof.
  induction l as [|z l IH]; intros s s' u H; cbn [each] in H.
  - nv H. constructor.
  - nb H. nb E. nv E. destruct (build_agent_core _ _ _ _ _ _ _ _ Hquiet E0) as [_ S]. simpl.
    econstructor; [exact S|]. apply (IH _ _ _ H).
Qed.
Lemma entry_loaded qe e i s s' u : says_entry qe e -> load_entry beh cond fuel i qe s = (Normal u, s') ->
  built (repeat (en_proto e, Some i) (en_number e)) (core_of s) (core_of s').
Proof.
  intros (P & t & N & V) H. unfold load_entry in H.
  nb H. apply lift_normal in E. destruct E as [E ->]. rewrite (get_says _ _ _ P) in E. nv E.
  nb H. apply lift_normal in E. destruct E as [E ->]. rewrite (get_says _ _ _ N) in E. nv E.
  nb H. apply lift_normal in E. destruct E as [E ->]. rewrite (atoi_number _ _ V) in E. nv E.
  apply entry_loop in H. rewrite seq_length, Nat2Z.id in H. exact H.
Qed.
Lemma entries_loaded i : forall qes es s r s',
  Forall2 says_entry qes es -> collect (load_entry beh cond fuel i) qes s = (Normal r, s') ->
  built (flat_map (fun e => repeat (en_proto e, Some i) (en_number e)) es) (core_of s) (core_of s').
Proof.
  induction qes as [|qe qes IH]; intros es s r s' F H; inversion F as [|? e ? es' He F']; subst; cbn [collect] in H.
  - nv H. constructor.
  - nb H. nb H. nv H. simpl. eapply built_app; [eapply entry_loaded; eauto|eapply IH; eauto].
Qed.
Lemma inst_loaded qe i reg s s' u : says_inst qe i -> load_inst beh cond fuel reg qe s = (Normal u, s') ->
  built (place_inst reg (List.length (c_h (core_of s))) i) (core_of s) (core_of s').
Proof.
  intros (P & F) H. destruct (says_proto_reads _ _ P) as (R1 & _). unfold load_inst in H.
  nb H. apply lift_normal in E. destruct E as [E ->]. rewrite R1 in E. nv E.
  nb H. destruct (build_agent_core _ _ _ _ _ _ _ _ Hquiet E) as [-> S]. nb H. nv H.
  rewrite over_collect, find2 in E0.
  unfold place_inst. econstructor; [exact S|]. eapply entries_loaded; eauto.
Qed.
Lemma insts_loaded reg : forall qes is s r s',
  Forall2 says_inst qes is -> collect (load_inst beh cond fuel reg) qes s = (Normal r, s') ->
  built (place_insts reg (List.length (c_h (core_of s))) is) (core_of s) (core_of s').
Proof.
  induction qes as [|qe qes IH]; intros is s r s' F H; inversion F as [|? e ? is' He F']; subst; cbn [collect] in H.
  - nv H. constructor.
  - nb H. nb H. nv H. cbn [place_insts]. pose proof (inst_loaded _ _ _ _ _ _ He E) as B.
    eapply built_app; [exact B|]. rewrite <- (built_length _ _ _ B). eapply IH; eauto.
Qed.
Lemma region_loaded qe r s s' u : says_region qe r -> load_region beh cond fuel qe s = (Normal u, s') ->
  built (place_region (List.length (c_h (core_of s))) r) (core_of s) (core_of s').
Proof.
  intros (P & F) H. destruct (says_proto_reads _ _ P) as (R1 & _). unfold load_region in H.
  nb H. apply lift_normal in E. destruct E as [E ->]. rewrite R1 in E. nv E.
  nb H. destruct (build_agent_core _ _ _ _ _ _ _ _ Hquiet E) as [-> St]. nb H. nv H.
  rewrite over_collect, find1 in E0.
  unfold place_region. econstructor; [exact St|].
  assert (L : S (List.length (c_h (core_of s))) = List.length (c_h (core_of s0))).
  { destruct St as (m & v & pid & _ & _ & _ & ->). simpl. rewrite app_length. simpl. lia. }
  rewrite L. eapply insts_loaded; eauto.
Qed.
Lemma regions_loaded : forall qes rs s r s',
  Forall2 says_region qes rs -> collect (load_region beh cond fuel) qes s = (Normal r, s') ->
  built (place_regions (List.length (c_h (core_of s))) rs) (core_of s) (core_of s').
Proof.
  induction qes as [|qe qes IH]; intros rs s r s' F H; inversion F as [|? e ? rs' He F']; subst; cbn [collect] in H.
  - nv H. constructor.
  - nb H. nb H. nv H. cbn [place_regions]. pose proof (region_loaded _ _ _ _ _ He E) as B.
    eapply built_app; [exact B|]. rewrite <- (built_length _ _ _ B). eapply IH; eauto.
Qed.
End File.
