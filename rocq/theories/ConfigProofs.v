(** Text and elements of the settings. *)
From Coq Require Import String Ascii List ZArith QArith Bool Arith Lia Lqa.
From Verif Require Import Base CompModel PackageModel ResourceModel LoaderSpec LoaderProofs ConfigModel ConfigSpec.
From Verif Require PpModel LoaderModel LoadSolverModel BuyModel.
Import PpModel(xml(..), find_path, find, nmatches, get_string, sub_tree, trim, ltrim, rtrim, is_space).
Import LoaderModel(path, rbind, opt_string, opt_int, element_name, digits, sign, atoi, in_int).
Import ListNotations.
Local Open Scope string_scope.

Lemma space_blank c : is_space c = true -> blank c.
Proof.
  destruct c as [[] [] [] [] [] [] [] []]; vm_compute; intros H; try discriminate; tauto.
Qed.
Lemma word_trim t u : says_word t u -> trim t = u.
Proof.
  intros (l & m & r & -> & -> & L & R & N & S). unfold trim. rewrite ltrim_blank by exact L.
  assert (S' : Forall (fun c => is_space c = false) m).
  { eapply Forall_impl; [|exact S]. intros c H. destruct (is_space c) eqn:F; [|reflexivity]. now apply space_blank in F. }
  rewrite ltrim_solid by (split; assumption). now apply rtrim_solid.
Qed.
Lemma solid_not_blank m : Forall (fun c => is_space c = false) m -> Forall (fun c => ~ blank c) m.
Proof. apply Forall_impl. intros c F B. apply blank_space in B. congruence. Qed.

(** ** Queries *)
Lemma sub1 n x y : children n x = [y] -> sub_tree x (path [n]) 0 = Ok y.
Proof. intros H. unfold sub_tree. rewrite find_ok, find1, H. reflexivity. Qed.
Lemma nm1 n x : nmatches x (path [n]) = Ok (List.length (children n x)).
Proof. now rewrite nmatches_ok, find1. Qed.

Section Q.
Variable lexd : string -> result Q.

Lemma opt_bool_says n x o d : says_maybe says_flag n x o -> opt_bool x (path [n]) d = Ok (given o d).
Proof.
  unfold opt_bool. rewrite nm1. destruct o as [b|]; simpl.
  - intros (t & H & u & W & F). pose proof (get_says _ _ _ H) as G. unfold says in H. rewrite H. simpl. rewrite G. simpl.
    rewrite (word_trim _ _ W). simpl in F. f_equal.
    destruct F as [F|[F|[F|[F|[]]]]]; injection F as <- <-; reflexivity.
  - intros ->. reflexivity.
Qed.
Lemma opt_double_says n x o d : says_maybe (says_real lexd) n x o -> opt_double lexd x (path [n]) d = Ok (given o d).
Proof.
  unfold opt_double. rewrite nm1. destruct o as [b|]; simpl.
  - intros (t & H & u & W & F). pose proof (get_says _ _ _ H) as G. unfold says in H. rewrite H. simpl. rewrite G. simpl.
    now rewrite (word_trim _ _ W).
  - intros ->. reflexivity.
Qed.
Lemma opt_int_says n x o d : says_maybe says_number n x o -> opt_int x (path [n]) d = Ok (given (option_map Z.of_nat o) d).
Proof.
  unfold opt_int. rewrite nm1. destruct o as [b|]; simpl.
  - intros (t & H & F). pose proof (get_says _ _ _ H) as G. unfold says in H. rewrite H. simpl. rewrite G. simpl.
    now apply lex_number.
  - intros ->. reflexivity.
Qed.
Lemma number_word t n : numerals lexd -> says_number t n -> lexd (trim t) = Ok (inject_Z (Z.of_nat n)).
Proof.
  intros Nu (l & ds & plus & r & -> & L & R & P & N & D & V & B).
  rewrite (word_trim _ (text (plus ++ map figure ds))); [now apply Nu|].
  destruct (signed_solid plus ds N D P) as [S1 S2].
  exists l, (plus ++ map figure ds)%list, r. rewrite <- app_assoc. repeat split; auto. now apply solid_not_blank.
Qed.
Lemma opt_double_number n x o d : numerals lexd -> says_maybe says_number n x o ->
  opt_double lexd x (path [n]) d = Ok (given (option_map (fun k => inject_Z (Z.of_nat k)) o) d).
Proof.
  intros Nu. unfold opt_double. rewrite nm1. destruct o as [b|]; simpl.
  - intros (t & H & F). pose proof (get_says _ _ _ H) as G. unfold says in H. rewrite H. simpl. rewrite G. simpl.
    now apply number_word.
  - intros ->. reflexivity.
Qed.
End Q.

Lemma opt_string_says n x o d : says_opt n x o -> opt_string x (path [n]) d = Ok (given o d).
Proof. apply opt_says. Qed.

Lemma says_bound t n : says_number t n -> (Z.of_nat n <= 2147483647)%Z.
Proof. intros (l & ds & plus & r & _ & _ & _ & _ & _ & _ & _ & B). exact B. Qed.
Lemma as_int_id z : (-2147483648 <= z <= 2147483647)%Z -> as_int z = z.
Proof. intros H. unfold as_int. rewrite Z.mod_small; [lia|]. change (2 ^ 31)%Z with 2147483648%Z. change (2 ^ 32)%Z with 4294967296%Z. lia. Qed.
Lemma as_u64_id z : (0 <= z <= 2147483647)%Z -> as_u64 z = z.
Proof. intros H. unfold as_u64. apply Z.mod_small. change (2 ^ 64)%Z with 18446744073709551616%Z. lia. Qed.
Lemma strtol_number t n : says_number t n -> as_int (strtol t) = Z.of_nat n.
Proof.
  intros H. pose proof (says_bound _ _ H) as B. apply atoi_number in H. unfold atoi in H. unfold strtol.
  destruct (sign (ltrim t)) as [sg r]. destruct (in_int _) in H; [|discriminate]. injection H as ->.
  replace (clamp _ _ _) with (Z.of_nat n); [apply as_int_id; lia|].
  unfold clamp. change (2 ^ 63)%Z with 9223372036854775808%Z. lia.
Qed.

(** ** Loops *)
Lemma each_from f x n : forall l pre s, children n x = (pre ++ l)%list ->
  each_of f x (path [n]) (seq (List.length pre) (List.length l)) s = for_rows f l s.
Proof.
  induction l as [|y l IH]; intros pre s H; [reflexivity|]. simpl. unfold sub_tree. rewrite find_ok, find1, H.
  rewrite nth_error_app2, Nat.sub_diag by lia. simpl. destruct (f y s) as [s'| |]; try reflexivity. simpl.
  replace (S (List.length pre)) with (List.length (pre ++ [y])) by (rewrite app_length; simpl; lia).
  apply IH. rewrite <- app_assoc. exact H.
Qed.
Lemma each_rows f x n s : each f x (path [n]) s = for_rows f (children n x) s.
Proof. unfold each. rewrite nm1. simpl. exact (each_from f x n (children n x) [] s eq_refl). Qed.

Section W.
Variable strtod : string -> Q.
Variable nucid : string -> result Z.
Definition vec (l : list (Z * Q)) (v : compmap) : compmap := fold_left (fun v p => zset (fst p) (snd p) v) l v.
Lemma nuclides_from x : forall l nucs pre v, children "nuclide" x = (pre ++ l)%list ->
  Forall2 (says_nuclide strtod nucid) l nucs ->
  read_nuclides strtod nucid x (seq (List.length pre) (List.length l)) v = Ok (vec nucs v).
Proof.
  induction l as [|y l IH]; intros nucs pre v H F; inversion F as [|? p ? nucs' S F']; subst; [reflexivity|].
  cbn [read_nuclides List.length seq]. unfold sub_tree. rewrite find_ok, find1, H.
  rewrite nth_error_app2, Nat.sub_diag by lia. cbn [nth_error rbind].
  destruct S as [(t1 & S1 & N) (t2 & S2 & D)]. rewrite (get_says _ _ _ S1). cbn [rbind]. rewrite N. cbn [rbind].
  rewrite (get_says _ _ _ S2). cbn [rbind]. rewrite D.
  replace (S (List.length pre)) with (List.length (pre ++ [y])) by (rewrite app_length; simpl; lia).
  rewrite (IH nucs') by (rewrite <- ?app_assoc; assumption). reflexivity.
Qed.
Lemma nuclides_read x nucs : Forall2 (says_nuclide strtod nucid) (children "nuclide" x) nucs ->
  read_nuclides strtod nucid x (seq 0 (List.length (children "nuclide" x))) [] = Ok (vec nucs []).
Proof. intros F. exact (nuclides_from x _ nucs [] [] eq_refl F). Qed.
End W.
