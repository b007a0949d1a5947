(** Queries and numbers. *)
From Coq Require Import String Ascii List ZArith Bool Arith Lia.
From Verif Require Import Base SpecModel SimModel LoaderModel LoaderSpec.
From Verif Require PpModel.
Import PpModel(xml(..), Name, Star, QPath, kids_of, find, find_path, nmatches, get_string, sub_tree, trim, ltrim, rtrim, is_space).
Import ListNotations.
Local Open Scope string_scope.

(** ** Queries *)
Lemma step_named n x : PpModel.step_ok (Name n) x = named n x.
Proof. destruct x; simpl; auto. apply String.eqb_sym. Qed.
Lemma kids_same x : kids_of x = kids x. Proof. destruct x; reflexivity. Qed.
Lemma flat_map_ext' {A B} (f g : A -> list B) l : (forall x, f x = g x) -> flat_map f l = flat_map g l.
Proof. intro H. induction l; simpl; congruence. Qed.
Lemma flat_map_one {A} (l : list A) : flat_map (fun x => [x]) l = l.
Proof. induction l; simpl; congruence. Qed.
Lemma filter_ext' {A} (f g : A -> bool) l : (forall x, f x = g x) -> filter f l = filter g l.
Proof. intro H. induction l; simpl; auto. rewrite H, IHl. reflexivity. Qed.
Lemma find_cons n l x : find_path (Name n :: l) x = flat_map (find_path l) (children n x).
Proof.
  simpl. unfold children. rewrite kids_same. f_equal. apply filter_ext'. apply step_named.
Qed.
Lemma find1 n x : find_path (map Name [n]) x = children n x.
Proof. simpl map. rewrite find_cons. apply flat_map_one. Qed.
Lemma find2 m n x : find_path (map Name [m; n]) x = flat_map (children n) (children m x).
Proof.
  change (map Name [m; n]) with (Name m :: map Name [n]). rewrite find_cons.
  apply flat_map_ext'. intro y. apply find1.
Qed.
Lemma find_ok l x : find x (path l) = Ok (find_path (map Name l) x). Proof. reflexivity. Qed.
Lemma nmatches_ok l x : nmatches x (path l) = Ok (List.length (find_path (map Name l) x)). Proof. reflexivity. Qed.

Lemma get_says n x v : says n x v -> get_string x (path [n]) 0 = Ok v.
Proof. intro H. unfold get_string. rewrite find_ok, find1. unfold says in H. rewrite !H. reflexivity. Qed.
Lemma opt_says n x v d : says_opt n x v -> opt_string x (path [n]) d = Ok (or_else v d).
Proof.
  intro H. unfold opt_string. rewrite nmatches_ok, find1. destruct v as [v|].
  - simpl in H. rewrite (get_says _ _ _ H). unfold says in H. rewrite !H. reflexivity.
  - simpl in H. rewrite H. reflexivity.
Qed.

(** ** Numbers *)
Lemma blank_space c : blank c -> is_space c = true.
Proof.
  unfold blank. simpl. intros H. repeat (destruct H as [<-|H]; [reflexivity|]). destruct H.
Qed.
Lemma text_app l r : text (l ++ r) = text l ++ text r.
Proof. induction l; simpl; congruence. Qed.
Lemma ltrim_blank l r : Forall blank l -> ltrim (text (l ++ r)) = ltrim (text r).
Proof. induction 1; simpl; auto. rewrite (blank_space _ H). exact IHForall. Qed.
Definition solid (l : list ascii) : Prop := l <> [] /\ Forall (fun c => is_space c = false) l.
Lemma ltrim_solid l r : solid l -> ltrim (text (l ++ r)) = text (l ++ r).
Proof. intros [N F]. destruct F; [congruence|]. simpl. rewrite H. reflexivity. Qed.
Lemma rtrim_blank r : Forall blank r -> rtrim (text r) = "".
Proof. induction 1; simpl; auto. rewrite IHForall, (blank_space _ H). reflexivity. Qed.
Lemma rtrim_solid l r : Forall (fun c => is_space c = false) l -> Forall blank r -> rtrim (text (l ++ r)) = text l.
Proof.
  intros F B. induction F; simpl; [apply rtrim_blank, B|]. rewrite IHF, H. destruct (text l); reflexivity.
Qed.

Lemma figure_lt d : (d < 10)%nat -> is_space (figure d) = false /\ is_digit (figure d) = true /\ digit (figure d) = Z.of_nat d /\
  Ascii.eqb (figure d) "-" = false /\ Ascii.eqb (figure d) "+" = false.
Proof. intro H. do 10 (destruct d as [|d]; [repeat split; reflexivity|]). lia. Qed.
#[local] Opaque figure is_digit digit is_space in_int.
Lemma digits_figures ds : Forall (fun d => (d < 10)%nat) ds -> forall acc r,
  (forall c s, r = String c s -> is_digit c = false) ->
  digits acc (text (map figure ds) ++ r) = (numeral acc ds, r).
Proof.
  induction 1 as [|d ds H F IH]; intros acc r Hr.
  - simpl. destruct r as [|c s]; auto. simpl. rewrite (Hr c s); auto.
  - cbn [map text String.append digits numeral]. destruct (figure_lt d H) as (_ & Hd & Hv & _).
    rewrite Hd, Hv, IH by exact Hr.
    replace (acc * 10 + Z.of_nat d)%Z with (10 * acc + Z.of_nat d)%Z by lia. reflexivity.
Qed.
#[local] Transparent is_digit is_space.
Lemma blank_not_digit c : blank c -> is_digit c = false.
Proof. unfold blank. simpl. intros H. repeat (destruct H as [<-|H]; [reflexivity|]). destruct H. Qed.
Lemma figures_solid ds : ds <> [] -> Forall (fun d => (d < 10)%nat) ds -> solid (map figure ds).
Proof.
  intros N F. split; [destruct ds; simpl; congruence|]. apply Forall_map. eapply Forall_impl; [|exact F].
  intros d H. apply figure_lt, H.
Qed.
Lemma sign_figures plus ds r : ds <> [] -> Forall (fun d => (d < 10)%nat) ds -> plus = [] \/ plus = ["+"%char] ->
  sign (text (plus ++ map figure ds ++ r)) = (1%Z, text (map figure ds ++ r)).
Proof.
  intros N F [->| ->]; [|reflexivity]. destruct F; [congruence|].
  destruct (figure_lt x H) as (_ & _ & _ & A & B). simpl. rewrite A, B. reflexivity.
Qed.
Lemma signed_solid plus ds : ds <> [] -> Forall (fun d => (d < 10)%nat) ds -> plus = [] \/ plus = ["+"%char] ->
  solid (plus ++ map figure ds).
Proof.
  intros N F P. destruct (figures_solid ds N F) as [A B]. destruct P as [->| ->]; simpl; [split; auto|].
  split; [discriminate|]. constructor; [reflexivity|exact B].
Qed.
#[local] Transparent in_int.
Lemma in_int_ok n : (Z.of_nat n <= 2147483647)%Z -> in_int (1 * Z.of_nat n) = true.
Proof. intro H. unfold in_int. apply andb_true_intro. split; apply Z.leb_le; lia. Qed.

#[local] Opaque in_int is_digit is_space.
Lemma atoi_number t n : says_number t n -> atoi t = Ok (Z.of_nat n).
Proof.
  intros (l & ds & plus & r & -> & Bl & Br & P & N & F & V & L). unfold atoi.
  rewrite ltrim_blank by exact Bl. rewrite app_assoc.
  rewrite (ltrim_solid (plus ++ map figure ds)) by (apply signed_solid; auto).
  rewrite <- app_assoc. rewrite sign_figures by auto. rewrite text_app.
  rewrite digits_figures; [|exact F|].
  - simpl fst. rewrite V, in_int_ok by exact L. f_equal. lia.
  - intros c s E. destruct Br as [|c' r H]; simpl in E; [discriminate|]. injection E as <- <-. apply blank_not_digit, H.
Qed.
Lemma lex_number t n : says_number t n -> lex_int (trim t) = Ok (Z.of_nat n).
Proof.
  intros (l & ds & plus & r & -> & Bl & Br & P & N & F & V & L). unfold lex_int, trim.
  rewrite ltrim_blank by exact Bl. rewrite app_assoc.
  rewrite (ltrim_solid (plus ++ map figure ds)) by (apply signed_solid; auto).
  rewrite rtrim_solid by (try apply signed_solid; auto).
  replace (plus ++ map figure ds)%list with (plus ++ map figure ds ++ [])%list by (rewrite app_nil_r; reflexivity).
  rewrite sign_figures by auto. rewrite app_nil_r.
  destruct ds as [|d ds]; [congruence|]. simpl map. simpl text. cbv iota beta.
  change (String (figure d) (text (map figure ds))) with (text (map figure (d :: ds))).
  assert (E := digits_figures (d :: ds) F 0 ""). 
  assert (G : forall s, s ++ "" = s) by (induction s; simpl; congruence). rewrite G in E.
  rewrite E by discriminate. rewrite V, in_int_ok by exact L. f_equal. lia.
Qed.

(** ** Archetypes *)
Lemma read_spec_says x a : says_archetype x a -> read_spec x = Ok (as_spec a).
Proof.
  intros (N & L & P & A). unfold read_spec. rewrite (get_says _ _ _ N). simpl.
  rewrite (opt_says _ _ _ _ L). simpl. rewrite (opt_says _ _ _ _ P). simpl. rewrite (opt_says _ _ _ _ A). simpl.
  reflexivity.
Qed.
Lemma spec_loop_gen {x} l0 : forall l pre specs u r,
  find_path (map Name ["archetypes"; "spec"]) x = (pre ++ l)%list ->
  Forall2 says_archetype l l0 ->
  spec_loop x (seq (List.length pre) (List.length l)) specs u = Ok r ->
  forall sp, In sp r -> In sp specs \/ exists a, In a l0 /\ sp = as_spec a.
Proof.
  induction l0 as [|a l0 IH]; intros l pre specs u r Hf F.
  - inversion F; subst. simpl. intro H; injection H as <-. auto.
  - inversion F as [|y ? l' ? Ha F']; subst. simpl seq. cbn [spec_loop].
    assert (E : sub_tree x (path ["archetypes"; "spec"]) (List.length pre) = Ok y).
    { unfold sub_tree. rewrite find_ok, Hf. rewrite nth_error_app2, Nat.sub_diag by lia. reflexivity. }
    rewrite E. cbn [rbind]. rewrite (read_spec_says _ _ Ha). cbn [rbind].
    replace (S (List.length pre)) with (List.length (pre ++ [y])%list) by (rewrite app_length; simpl; lia).
    assert (Hf' : find_path (map Name ["archetypes"; "spec"]) x = ((pre ++ [y]) ++ l')%list)
      by (rewrite <- app_assoc; exact Hf).
    destruct (existsb _ u); intros H sp Hin.
    + destruct (IH _ _ _ _ _ Hf' F' H sp Hin) as [?|(b & ? & ?)]; [auto|]. right. exists b. simpl. auto.
    + destruct (IH _ _ _ _ _ Hf' F' H sp Hin) as [I|(b & ? & ?)].
      * apply in_app_or in I. destruct I as [?|[<-|[]]]; [auto|]. right. exists a. simpl. auto.
      * right. exists b. simpl. auto.
Qed.
Lemma parse_specs_in x l r : says_archetypes x l -> parse_specs x = Ok r ->
  forall sp, In sp r -> exists a, In a l /\ sp = as_spec a.
Proof.
  intros [(k & ->) F]. unfold parse_specs. rewrite nmatches_ok. cbn [rbind].
  destruct (spec_loop _ _ [] []) as [r'| |] eqn:E; cbn [rbind]; try discriminate.
  intros H sp Hin. assert (r' = r) by (destruct r'; congruence). subst r'.
  assert (F' : Forall2 says_archetype (find_path (map Name ["archetypes"; "spec"]) (XElem "simulation" k)) l)
    by (rewrite find2; exact F).
  destruct (spec_loop_gen l _ [] [] [] r eq_refl F' E sp Hin) as [[]|]; auto.
Qed.
Lemma spec_for_in al : forall l acc, 
  fold_left (fun acc sp => if String.eqb (sp_alias sp) al then sp else acc) l acc = acc \/
  exists sp, In sp l /\ sp_alias sp = al /\
    fold_left (fun acc sp => if String.eqb (sp_alias sp) al then sp else acc) l acc = sp.
Proof.
  induction l as [|x l IH]; intros acc; simpl; auto.
  destruct (String.eqb_spec (sp_alias x) al) as [E|E].
  - destruct (IH x) as [->|(sp & ? & ? & ?)]; right; [exists x|exists sp]; auto.
  - destruct (IH acc) as [->|(sp & ? & ? & ?)]; auto. right. exists sp. auto.
Qed.
(** A class that can be made is one of the archetypes of the file. *)
Lemma class_found make x l r al cls :
  says_archetypes x l -> parse_specs x = Ok r ->
  (forall c, make (mkSpec "" "" "" "") <> Ok c) ->
  make (spec_for r al) = Ok cls -> class_of make l al (cls, spec_str (spec_for r al)).
Proof.
  intros S P N M. unfold spec_for in *. destruct (spec_for_in al r (mkSpec "" "" "" "")) as [E|(sp & I & A & E)];
    rewrite E in *; [destruct (N _ M)|].
  destruct (parse_specs_in _ _ _ S P _ I) as (a & Ia & ->). exists a. repeat split; auto.
Qed.
