(** Proofs for C44. *)
From Coq Require Import String List ZArith QArith Ascii Bool Lia Permutation.
From Verif Require Import Base QueryModel QuerySpec.
Import ListNotations.
Local Open Scope list_scope.

(** ** Comparisons *)
Lemma ascii_cmp a b : match Ascii.compare a b with
  | Lt => (nat_of_ascii a < nat_of_ascii b)%nat | Eq => a = b | Gt => (nat_of_ascii b < nat_of_ascii a)%nat end.
Proof.
  unfold Ascii.compare. destruct (N.compare_spec (N_of_ascii a) (N_of_ascii b)) as [E|L|L].
  - rewrite <- (ascii_N_embedding a), <- (ascii_N_embedding b). now rewrite E.
  - unfold nat_of_ascii. lia.
  - unfold nat_of_ascii. lia.
Qed.
Lemma scompare a : forall b, match String.compare a b with Lt => sless a b | Eq => a = b | Gt => sless b a end.
Proof.
  induction a as [|x a IH]; destruct b as [|y b]; cbn; try constructor.
  pose proof (ascii_cmp x y) as C. destruct (Ascii.compare x y); [subst y|now apply sl_head|now apply sl_head].
  specialize (IH b). destruct (String.compare a b); [now subst|now apply sl_tail|now apply sl_tail].
Qed.
Lemma sless_irrefl s : ~ sless s s.
Proof. intros H. remember s as t in H at 2. revert Heqt. induction H; intros E; inversion E; subst; [lia|]. now apply IHsless. Qed.
Lemma sless_asym s t : sless s t -> ~ sless t s.
Proof. induction 1; intros K; inversion K; subst; try lia; try contradiction. Qed.
Lemma sltb_spec a b : sltb a b = true <-> sless a b.
Proof.
  unfold sltb. pose proof (scompare a b) as C. destruct (String.compare a b); split; intros H; try discriminate; try assumption; try reflexivity.
  - subst. now apply sless_irrefl in H.
  - now apply sless_asym in H.
Qed.
Lemma stri a b : sless a b \/ a = b \/ sless b a.
Proof. pose proof (scompare a b) as C. destruct (String.compare a b); auto. Qed.

(** A decidable strict order with its equality. *)
Lemma cmp_with_spec {T} (ltb eqb : T -> T -> bool) (lt eq : T -> T -> Prop)
  (L : forall x y, ltb x y = true <-> lt x y) (E : forall x y, eqb x y = true <-> eq x y)
  (TRI : forall x y, lt x y \/ eq x y \/ lt y x) (AS : forall x y, lt x y -> ~ lt y x) (EL : forall x y, eq x y -> ~ lt x y) (SY : forall x y, eq x y -> eq y x) :
  forall op x y, cmp_with ltb eqb op x y = true <->
    match op with LT => lt x y | GT => lt y x | LE => lt x y \/ eq x y | GE => lt y x \/ eq x y | EQ => eq x y | NE => ~ eq x y end.
Proof.
  intros op x y. assert (forall a b, negb (ltb a b) = true <-> ~ lt a b) as N.
  { intros a b. rewrite negb_true_iff. split; [intros H K; apply L in K; congruence|intros H; destruct (ltb a b) eqn:Q; [apply L in Q; contradiction|reflexivity]]. }
  destruct op; cbn; try apply L; try apply E.
  - rewrite N. split; [|intros [H|H] K; [now apply AS in H|apply SY in H; now apply EL in K]]. intros H. destruct (TRI x y) as [|[|]]; auto. contradiction.
  - rewrite N. split; [|intros [H|H] K; [now apply AS in H|now apply EL in K]]. intros H. destruct (TRI x y) as [|[|]]; auto. contradiction.
  - rewrite negb_true_iff. split; [intros H K; apply E in K; congruence|intros H; destruct (eqb x y) eqn:Q; [apply E in Q; contradiction|reflexivity]].
Qed.
Lemma cmp_int op x y : cmp_with Z.ltb Z.eqb op x y = true <->
  match op with LT => x < y | GT => y < x | LE => x < y \/ x = y | GE => y < x \/ x = y | EQ => x = y | NE => x <> y end%Z.
Proof. apply cmp_with_spec; intros; rewrite ?Z.ltb_lt, ?Z.eqb_eq; lia. Qed.
Lemma cmp_dbl op x y : cmp_with Qltb Qeqb op x y = true <->
  match op with LT => x < y | GT => y < x | LE => x < y \/ x == y | GE => y < x \/ x == y | EQ => x == y | NE => ~ x == y end%Q.
Proof.
  apply cmp_with_spec.
  - intros a b. destruct (Qltb_spec a b); split; auto; discriminate.
  - intros a b. destruct (Qeqb_spec a b); split; auto; discriminate.
  - intros a b. destruct (Q_dec a b) as [[|]|]; auto.
  - intros a b H K. apply (Qlt_irrefl a). now apply Qlt_trans with b.
  - intros a b H K. rewrite H in K. now apply Qlt_irrefl in K.
  - intros a b H. now symmetry.
Qed.
Lemma cmp_str op x y : cmp_with sltb seqb op x y = true <->
  match op with LT => sless x y | GT => sless y x | LE => sless x y \/ x = y | GE => sless y x \/ x = y | EQ => x = y | NE => x <> y end.
Proof.
  apply cmp_with_spec; [exact sltb_spec|exact String.eqb_eq|exact stri|exact sless_asym| |intros; now symmetry].
  intros a b -> H. now apply sless_irrefl in H.
Qed.
Lemma cmp_bool op x y : cmp_with bltb Bool.eqb op x y = true <->
  let lt a b := a = false /\ b = true in
  match op with LT => lt x y | GT => lt y x | LE => lt x y \/ x = y | GE => lt y x \/ x = y | EQ => x = y | NE => x <> y end.
Proof.
  apply cmp_with_spec.
  - intros [] []; cbn; split; auto; try discriminate; intros [? ?]; discriminate.
  - exact Bool.eqb_true_iff.
  - intros [] []; auto.
  - intros a b [-> ->] [? _]. discriminate.
  - intros a b -> [? ?]. congruence.
  - intros a b H. now symmetry.
Qed.

Definition op_text (o : opcode) : string :=
  match o with LT => "<" | GT => ">" | LE => "<=" | GE => ">=" | EQ => "==" | NE => "!=" end%string.
Lemma compares_text o x y : compares (op_text o) x y <->
  match o with LT => vless x y | GT => vless y x | LE => vless x y \/ vequal x y | GE => vless y x \/ vequal x y
             | EQ => vequal x y | NE => same_kind x y /\ ~ vequal x y end.
Proof. destruct o; reflexivity. Qed.

Lemma make_cond_spec f op v :
  (forall c, make_cond f op v = Ok c -> q_field c = f /\ q_op c = op /\ q_val c = v /\ op = op_text (q_opcode c)) /\
  (make_cond f op v = Throw ValueError <-> ~ In op ["<"; ">"; "<="; ">="; "=="; "!="]%string) /\
  (In op ["<"; ">"; "<="; ">="; "=="; "!="]%string -> exists c, make_cond f op v = Ok c).
Proof.
  unfold make_cond.
  destruct (String.eqb_spec op "<") as [->|N1]; [|destruct (String.eqb_spec op ">") as [->|N2]; [|destruct (String.eqb_spec op "<=") as [->|N3]; [|
    destruct (String.eqb_spec op ">=") as [->|N4]; [|destruct (String.eqb_spec op "==") as [->|N5]; [|destruct (String.eqb_spec op "!=") as [->|N6]]]]]].
  1-6: split; [intros c [= <-]; cbn; auto|split; [split; [discriminate|intros H; exfalso; apply H; cbn; tauto]|eauto]].
  split; [discriminate|]. split; [split; [intros _ H; cbn in H; intuition congruence|reflexivity]|]. intros H. cbn in H. intuition congruence.
Qed.

(** A condition as its constructor makes it. *)
Definition proper (c : cond) : Prop := q_op c = op_text (q_opcode c).
Lemma made_proper f op v c : make_cond f op v = Ok c -> proper c.
Proof. intros H. apply (proj1 (make_cond_spec f op v)) in H as [_ [H1 [_ H2]]]. unfold proper. congruence. Qed.

Lemma cmp_cond_spec x c : proper c ->
  (same_kind x (q_val c) -> exists b, cmp_cond x c = Ok b /\ (b = true <-> compares (q_op c) x (q_val c))) /\
  (~ same_kind x (q_val c) -> cmp_cond x c = Throw CastError).
Proof.
  intros P. rewrite P. destruct c as [f op o v]. unfold cmp_cond. cbn [q_opcode q_val].
  assert (forall (b : bool) (X : Prop), (b = true <-> X) -> forall Y : Prop, (X <-> Y) -> exists b', Ok b = Ok b' /\ (b' = true <-> Y)) as A.
  { intros b X H Y K. exists b. split; [reflexivity|]. now rewrite H. }
  destruct x, v; (split; [intros H; try (destruct H; fail)|intros H; first [reflexivity|exfalso; apply H; exact I]]).
  - apply (A _ _ (cmp_int o z z0)). rewrite compares_text. destruct o; cbn; tauto.
  - apply (A _ _ (cmp_dbl o q q0)). rewrite compares_text. destruct o; cbn; tauto.
  - apply (A _ _ (cmp_str o s s0)). rewrite compares_text. destruct o; cbn; tauto.
  - apply (A _ _ (cmp_bool o b b0)). rewrite compares_text. destruct o; cbn; tauto.
Qed.
Lemma same_kind_dec x y : {same_kind x y} + {~ same_kind x y}.
Proof. destruct x, y; cbn; auto. Qed.
Lemma compares_kind o x y : compares (op_text o) x y -> same_kind x y.
Proof. rewrite compares_text. destruct o, x, y; cbn; tauto. Qed.

Lemma cmp_conds_true x cs : Forall proper cs -> (cmp_conds x cs = Ok true <-> forall c, In c cs -> compares (q_op c) x (q_val c)).
Proof.
  induction 1 as [|c cs P F IH]; [cbn; split; [intros _ c []|reflexivity]|]. cbn [cmp_conds]. destruct (cmp_cond_spec x c P) as [S N].
  destruct (same_kind_dec x (q_val c)) as [K|K].
  - destruct (S K) as [b [-> B]]. destruct b.
    + rewrite IH. split; [intros H d [<-|D]; [now apply B|now apply H]|]. intros H d D. apply H. now right.
    + split; [discriminate|]. intros H. pose proof (proj2 B (H c (or_introl eq_refl))). discriminate.
  - rewrite (N K). split; [discriminate|]. intros H. exfalso. apply K. specialize (H c (or_introl eq_refl)). rewrite P in H. now apply compares_kind in H.
Qed.
Lemma cmp_conds_false x cs : Forall proper cs -> Forall (fun c => same_kind x (q_val c)) cs ->
  exists b, cmp_conds x cs = Ok b.
Proof.
  induction cs as [|c cs IH]; intros P K; cbn; [eauto|]. inversion P; inversion K; subst. destruct (cmp_cond_spec x c) as [S _]; [assumption|].
  destruct S as [b [-> _]]; [assumption|]. destruct b; [now apply IH|eauto].
Qed.

(** ** Rows *)
Lemma field_index_spec fields f : match field_index fields f with
  | Some i => nth_error fields i = Some f /\ (forall j, (j < i)%nat -> nth_error fields j <> Some f)
  | None => ~ In f fields end.
Proof.
  induction fields as [|g gs IH]; cbn; [tauto|]. destruct (String.eqb_spec g f) as [->|N].
  - split; [reflexivity|]. intros j J. lia.
  - destruct (field_index gs f) as [i|]; [|intros [|]; auto]. destruct IH as [I1 I2]. split; [exact I1|].
    intros [|j] J; cbn; [congruence|]. apply I2. lia.
Qed.
Lemma column_index fields row f v : column fields row f v <-> exists i, field_index fields f = Some i /\ nth_error row i = Some v.
Proof.
  pose proof (field_index_spec fields f) as S. split.
  - intros [i [H1 [H2 H3]]]. destruct (field_index fields f) as [j|]; [|exfalso; apply S; eapply nth_error_In; eassumption].
    destruct S as [S1 S2]. exists j. split; [reflexivity|]. destruct (Nat.lt_trichotomy i j) as [L|[->|L]]; [now apply S2 in L|assumption|now apply H2 in L].
  - intros [i [H K]]. rewrite H in S. exists i. tauto.
Qed.
Lemma where_row_spec cmp fields cs row : where_row cmp fields cs row = true <-> satisfies cmp fields cs row.
Proof.
  induction cs as [|c cs IH]; cbn; [split; [intros _ c []|reflexivity]|]. split.
  - intros H d [<-|D].
    + destruct (field_index fields (q_field c)) as [i|] eqn:E; [|discriminate]. destruct (nth_error row i) as [v|] eqn:V; [|discriminate].
      apply andb_true_iff in H as [H _]. exists v. split; [apply column_index; eauto|assumption].
    + destruct (field_index fields (q_field c)) as [i|] eqn:E; [|discriminate]. destruct (nth_error row i) as [v|] eqn:V; [|discriminate].
      apply andb_true_iff in H as [_ H]. now apply IH.
  - intros H. destruct (H c (or_introl eq_refl)) as [v [C V]]. apply column_index in C as [i [-> ->]]. rewrite V. cbn. apply IH. intros d D. apply H. now right.
Qed.
Lemma keeps_filter {A} (P : A -> Prop) (p : A -> bool) : (forall r, p r = true <-> P r) -> forall rows, keeps P rows (filter p rows).
Proof.
  intros E. induction rows as [|r rows IH]; cbn; [constructor|]. destruct (p r) eqn:R; [constructor; [now apply E|assumption]|].
  constructor; [intros H; apply E in H; congruence|assumption].
Qed.
Lemma keeps_fun {A} (P Q : A -> Prop) : (forall r, P r <-> Q r) -> forall rows o1 o2, keeps P rows o1 -> keeps Q rows o2 -> o1 = o2.
Proof.
  intros E rows o1 o2 H. revert o2. induction H as [|r rows out I H IH|r rows out I H IH]; intros o2 K; inversion K; subst; try reflexivity.
  - f_equal. now apply IH.
  - exfalso. apply E in I. contradiction.
  - exfalso. apply I. now apply E.
  - now apply IH.
Qed.
Lemma keeps_app {A} (P Q : A -> Prop) rows o1 : keeps P rows o1 -> forall o2, keeps (fun r => P r /\ Q r) rows o2 -> keeps Q o1 o2.
Proof.
  induction 1 as [|r rows out I H IH|r rows out I H IH]; intros o2 K.
  - inversion K; subst. constructor.
  - inversion K; subst; [constructor; [tauto|now apply IH]|constructor; [tauto|now apply IH]].
  - inversion K; subst; [tauto|now apply IH].
Qed.
Lemma keeps_sub {A} (P : A -> Prop) rows out : keeps P rows out -> forall r, In r out <-> In r rows /\ P r.
Proof.
  induction 1 as [|r rows out I H IH|r rows out I H IH]; intros x; cbn; [tauto| |].
  - rewrite IH. split; [intros [<-|[? ?]]; tauto|]. intros [[<-|?] ?]; tauto.
  - rewrite IH. split; [tauto|]. intros [[<-|?] ?]; tauto.
Qed.

(** ** The SQLite backend *)
Lemma combine_fst {A B} (l : list A) : forall (m : list B), List.length m = List.length l -> map fst (combine l m) = l /\ map snd (combine l m) = m.
Proof.
  induction l as [|a l IH]; intros [|b m] H; try discriminate; [split; reflexivity|]. cbn. injection H as H. destruct (IH m H) as [-> ->]. auto.
Qed.
Lemma info_ok db t q : well_formed_db db -> find_table db t = Some q -> get_table_info db t = Ok (combine (r_fields q) (r_types q)).
Proof.
  intros W F. destruct (W t q F) as [N L]. unfold get_table_info. rewrite F. destruct (combine (r_fields q) (r_types q)) eqn:E; [|reflexivity].
  destruct (r_fields q), (r_types q); try discriminate; congruence.
Qed.
Lemma sqlite_faithful : forall cmp db, well_formed_db db -> faithful cmp (sqlite_back cmp db) (find_table db).
Proof.
  intros cmp db W t q F. destruct (W t q F) as [N L]. destruct (combine_fst _ _ L) as [M1 M2]. cbn [sqlite_back b_query]. unfold sqlite_query.
  rewrite (info_ok db t q W F), F, M1, M2. split; [destruct q; reflexivity|]. intros cs NE K. destruct cs as [|c cs]; [congruence|].
  assert (forallb (fun c => match field_index (r_fields q) (q_field c) with Some _ => true | None => false end) (c :: cs) = true) as ->.
  { apply forallb_forall. intros d D. pose proof (field_index_spec (r_fields q) (q_field d)) as S. destruct (field_index _ _); [reflexivity|]. exfalso. apply S. now apply K. }
  eexists. split; [reflexivity|]. apply keeps_filter. intros r. apply where_row_spec.
Qed.
Lemma sqlite_errors : forall cmp db t conds, well_formed_db db ->
  (find_table db t = None -> b_query (sqlite_back cmp db) t conds = Throw ValueError) /\
  (forall q, find_table db t = Some q -> conds = Some [] -> b_query (sqlite_back cmp db) t conds = Throw IOError) /\
  (forall q cs c, find_table db t = Some q -> conds = Some cs -> In c cs -> ~ In (q_field c) (r_fields q) ->
     b_query (sqlite_back cmp db) t conds = Throw IOError).
Proof.
  intros cmp db t conds W. cbn [sqlite_back b_query]. unfold sqlite_query. split; [|split].
  - intros F. unfold get_table_info. now rewrite F.
  - intros q F ->. now rewrite (info_ok db t q W F), F.
  - intros q cs c F -> I N. rewrite (info_ok db t q W F), F. destruct cs as [|d cs]; [reflexivity|].
    destruct (forallb _ (d :: cs)) eqn:E; [|reflexivity]. rewrite forallb_forall in E. specialize (E c I). pose proof (field_index_spec (r_fields q) (q_field c)) as S.
    destruct (field_index _ _) as [i|]; [|discriminate]. exfalso. apply N. eapply nth_error_In. apply S.
Qed.

(** ** Piles of injectors *)
Definition arrives (ls : list layer) (conds : option (list cond)) : option (list cond) :=
  match conds with
  | None => if existsb (fun l => match l with OnlyWhere _ => true | Prefixed _ => false end) ls then Some (added ls) else None
  | Some cs => Some (cs ++ added ls)
  end.
Lemma pile_query b : forall ls t conds, b_query (pile b ls) t conds = b_query b (real_table ls t) (arrives ls conds).
Proof.
  induction ls as [|l ls IH]; intros t conds; cbn [pile].
  - unfold arrives. cbn. destruct conds; cbn; [now rewrite app_nil_r|reflexivity].
  - destruct l as [cs|p]; cbn [cond_injector prefix_injector b_query real_table].
    + destruct conds as [c|]; rewrite IH; cbn [arrives existsb added orb]; [now rewrite app_assoc|reflexivity].
    + rewrite IH. reflexivity.
Qed.
Lemma restricts_existsb ls : existsb (fun l => match l with OnlyWhere _ => true | Prefixed _ => false end) ls = true <-> Exists restricts ls.
Proof.
  induction ls as [|l ls IH]; cbn; [split; [discriminate|intros H; inversion H]|]. rewrite orb_true_iff, IH, Exists_cons. destruct l; cbn; intuition discriminate.
Qed.
Lemma added_none ls : ~ Exists restricts ls -> added ls = [].
Proof. induction ls as [|[cs|p] ls IH]; intros H; cbn; [reflexivity|exfalso; apply H; left; exact I|]. apply IH. intros E. apply H. now right. Qed.
Lemma satisfies_nil cmp fields r : satisfies cmp fields [] r.
Proof. intros c []. Qed.
Lemma satisfies_app cmp fields c1 c2 r : satisfies cmp fields (c1 ++ c2) r <-> satisfies cmp fields c1 r /\ satisfies cmp fields c2 r.
Proof.
  split; [intros H; split; intros c C; apply H; apply in_or_app; auto|]. intros [H1 H2] c C. apply in_app_or in C as [C|C]; auto.
Qed.
Lemma keeps_all {A} (P : A -> Prop) rows : (forall r, P r) -> keeps P rows rows.
Proof. intros H. induction rows; constructor; auto. Qed.

Lemma pile_answer cmp b content ls t conds q : faithful cmp b content -> content (real_table ls t) = Some q ->
  not_an_empty_list ls conds -> (forall c, In c (asked conds ++ added ls) -> In (q_field c) (r_fields q)) ->
  exists out, b_query (pile b ls) t conds = Ok (mkQR (r_fields q) (r_types q) out) /\
    keeps (satisfies cmp (r_fields q) (asked conds ++ added ls)) (r_rows q) out.
Proof.
  intros F C W K. rewrite pile_query. destruct (F _ _ C) as [F1 F2]. destruct W as [[-> NR]|NE].
  - cbn [asked arrives]. rewrite (added_none ls NR) in *. destruct (existsb _ ls) eqn:E; [apply restricts_existsb in E; contradiction|].
    exists (r_rows q). split; [rewrite F1; now destruct q|]. apply keeps_all. intros r. apply satisfies_nil.
  - assert (arrives ls conds = Some (asked conds ++ added ls)) as ->.
    { destruct conds as [cs|]; cbn [arrives asked]; [reflexivity|]. destruct (existsb _ ls) eqn:E; [reflexivity|].
      exfalso. apply NE. cbn. apply added_none. intros X. apply restricts_existsb in X. congruence. }
    now apply F2.
Qed.
Lemma keeps_ext {A} (P Q : A -> Prop) rows out : (forall r, P r <-> Q r) -> keeps P rows out -> keeps Q rows out.
Proof. intros E. induction 1; constructor; auto; [now apply E|]. intros X. apply H. now apply E. Qed.
Lemma pile_inner cmp b content l ls t conds q : faithful cmp b content -> content (real_table ls t) = Some q ->
  not_an_empty_list ls conds -> l <> [] -> (forall c, In c (asked conds ++ l ++ added ls) -> In (q_field c) (r_fields q)) ->
  exists inner outer, b_query (pile b ls) t conds = Ok inner /\ b_query (cond_injector (pile b ls) l) t conds = Ok outer /\
    r_fields outer = r_fields inner /\ r_types outer = r_types inner /\
    keeps (satisfies cmp (r_fields inner) l) (r_rows inner) (r_rows outer).
Proof.
  intros F C W NE K.
  destruct (pile_answer cmp b content ls t conds q F C W) as [o1 [E1 K1]].
  { intros c I. apply K. rewrite !in_app_iff in *. tauto. }
  destruct (pile_answer cmp b content (OnlyWhere l :: ls) t conds q F C) as [o2 [E2 K2]].
  { right. cbn. destruct (asked conds); [destruct l; [congruence|discriminate]|discriminate]. }
  { exact K. }
  do 2 eexists. split; [exact E1|]. split; [exact E2|]. cbn. split; [reflexivity|]. split; [reflexivity|].
  eapply keeps_app; [exact K1|]. eapply keeps_ext; [|exact K2]. intros r. cbn. rewrite !satisfies_app. tauto.
Qed.
Lemma pile_order cmp b content ls1 ls2 t1 t2 conds1 conds2 q r1 r2 : faithful cmp b content ->
  real_table ls1 t1 = real_table ls2 t2 -> content (real_table ls1 t1) = Some q ->
  (forall c, In c (asked conds1 ++ added ls1) <-> In c (asked conds2 ++ added ls2)) ->
  (forall c, In c (asked conds1 ++ added ls1) -> In (q_field c) (r_fields q)) ->
  not_an_empty_list ls1 conds1 -> not_an_empty_list ls2 conds2 ->
  b_query (pile b ls1) t1 conds1 = r1 -> b_query (pile b ls2) t2 conds2 = r2 -> r1 = r2.
Proof.
  intros F E C S K W1 W2 <- <-. destruct (pile_answer cmp b content ls1 t1 conds1 q F C W1 K) as [o1 [-> K1]].
  rewrite E in C. destruct (pile_answer cmp b content ls2 t2 conds2 q F C W2) as [o2 [-> K2]]; [intros c I; apply K; now apply S|].
  f_equal. f_equal. eapply keeps_fun; [|exact K1|exact K2]. intros r. unfold satisfies. split; intros H c I; apply H; now apply S.
Qed.

(** ** GetVal *)
Lemma get_val_ok {T} (cast : anyval -> option T) r f row x : get_val cast r f row = Ok x ->
  (0 <= row)%Z /\ exists vs v, nth_error (r_rows r) (Z.to_nat row) = Some vs /\ column (r_fields r) vs f v /\ cast v = Some x.
Proof.
  unfold get_val. destruct (r_rows r) as [|r0 rs] eqn:E; [discriminate|]. rewrite <- E. destruct (row <? 0)%Z eqn:L; [discriminate|]. cbn [orb].
  destruct (_ <=? row)%Z eqn:L2; [discriminate|]. destruct (field_index (r_fields r) f) as [i|] eqn:FI; [|discriminate].
  destruct (nth_error (r_rows r) (Z.to_nat row)) as [vs|] eqn:V; [|discriminate]. destruct (nth_error vs i) as [v|] eqn:N; [|discriminate].
  destruct (cast v) as [y|] eqn:Y; [|discriminate]. intros [= <-]. split; [lia|]. exists vs, v. split; [reflexivity|]. split; [apply column_index; eauto|assumption].
Qed.
Lemma get_val_total {T} (cast : anyval -> option T) r f row vs v : (0 <= row)%Z -> nth_error (r_rows r) (Z.to_nat row) = Some vs ->
  column (r_fields r) vs f v -> get_val cast r f row = match cast v with Some x => Ok x | None => Throw CastError end.
Proof.
  intros P N C. apply column_index in C as [i [FI V]]. unfold get_val. assert (Z.to_nat row < List.length (r_rows r))%nat as L by (apply nth_error_Some; congruence).
  destruct (r_rows r) as [|r0 rs] eqn:E; [cbn in L; lia|]. rewrite <- E in *. destruct (row <? 0)%Z eqn:L1; [lia|]. destruct (_ <=? row)%Z eqn:L2; [lia|]. cbn.
  rewrite FI, N, V. destruct (cast v); reflexivity.
Qed.

(** ** Constructed conditions *)
Lemma constructed_proper cs : Forall constructed cs -> Forall proper cs.
Proof. intros H. eapply Forall_impl; [|exact H]. intros c [f [op [v E]]]. now apply made_proper in E. Qed.
Lemma conjunction : forall x cs, Forall constructed cs ->
  (cmp_conds x cs = Ok true <-> forall c, In c cs -> compares (q_op c) x (q_val c)) /\
  (Forall (fun c => same_kind x (q_val c)) cs -> exists b, cmp_conds x cs = Ok b).
Proof. intros x cs H. apply constructed_proper in H. split; [now apply cmp_conds_true|now apply cmp_conds_false]. Qed.
Lemma operators : forall f op v,
  (In op ["<"; ">"; "<="; ">="; "=="; "!="]%string ->
     exists c, make_cond f op v = Ok c /\ q_field c = f /\ q_op c = op /\ q_val c = v) /\
  (~ In op ["<"; ">"; "<="; ">="; "=="; "!="]%string -> make_cond f op v = Throw ValueError).
Proof.
  intros f op v. destruct (make_cond_spec f op v) as [S1 [S2 S3]]. split; [|apply S2].
  intros H. destruct (S3 H) as [c E]. exists c. split; [exact E|]. destruct (S1 c E) as [A [B [C _]]]. auto.
Qed.
Lemma only_rows : forall cmp b content ls t conds q r, faithful cmp b content -> content (real_table ls t) = Some q ->
  not_an_empty_list ls conds -> (forall c, In c (asked conds ++ added ls) -> In (q_field c) (r_fields q)) ->
  b_query (pile b ls) t conds = Ok r ->
  forall row, In row (r_rows r) <-> In row (r_rows q) /\ satisfies cmp (r_fields q) (asked conds) row /\ satisfies cmp (r_fields q) (added ls) row.
Proof.
  intros cmp b content ls t conds q r F C W K E row. destruct (pile_answer cmp b content ls t conds q F C W K) as [o [E' S]]. rewrite E in E'. injection E' as ->. cbn.
  rewrite (keeps_sub _ _ _ S row), satisfies_app. reflexivity.
Qed.
