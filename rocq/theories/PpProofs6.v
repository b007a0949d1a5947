(** * Proofs: default values *)
From Coq Require Import Ascii Sorted.
From Verif Require Import Base PpModel PpSpec PpProofs PpProofs2 PpProofs3 PpProofs4 PpProofs5.
Open Scope string_scope.
Open Scope list_scope.

(** the type a default is declared with: a float literal is a double *)
Definition ity (t : ctype) : ctype := match t with TP p => TP (init_prim p) | _ => t end.
Definition clear (x : string) (t : ctype) : Prop :=
  match t with
  | TP _ => True
  | TC _ _ => x <> "elem"
  | TPair _ _ => x <> "first" /\ x <> "second"
  | TMap _ _ => x <> "key" /\ x <> "val"
  end.

Lemma has_type_cvt t d : has_type t d -> cvt_to t d = d.
Proof.
  destruct t as [p| | |], d as [|v| | | |]; simpl; auto; try (destruct c; tauto); try tauto.
  intro H. now rewrite has_prim_cvt.
Qed.
Lemma has_prim_init p v : has_prim p v -> has_prim (init_prim p) v.
Proof. now destruct p, v. Qed.
Lemma ity_assignable t d : has_type t d -> assignable t (ity t) = true.
Proof.
  destruct t as [p| | |]; try (intro; apply assignable_refl).
  destruct d as [|v| | | |]; simpl; try tauto. destruct p, v; simpl; tauto.
Qed.

Definition elems_of (x : string) :=
  fix elems (t : ctype) (c : seqkind) (i : nat) (l : list val) {struct l} : option (list stmt) :=
    match l with
    | [] => Some []
    | v :: l =>
        obind (val_code t v "elem") (fun s =>
        obind (elems t c (S i) l) (fun r =>
        Some (SBlock (s ++ [match c with
                            | KVector => SAt x (ILit i) "elem"
                            | KSet => SInsert x "elem"
                            | KList => SPush x "elem"
                            end]) :: r)))
    end.
Definition items_of (x : string) :=
  fix items (tk tv : ctype) (l : list (val * val)) {struct l} : option (list stmt) :=
    match l with
    | [] => Some []
    | (k, v) :: l =>
        obind (val_code tk k "key") (fun sk =>
        obind (val_code tv v "val") (fun sv =>
        obind (items tk tv l) (fun r =>
        Some (SBlock (sk ++ sv ++ [SPut x "key" "val"]) :: r))))
    end.

Lemma upd_middle {A} (l : list A) x y r : upd (l ++ x :: r) (List.length l) y = l ++ y :: r.
Proof. induction l; simpl; congruence. Qed.

Section Run.
  Variable nucid : string -> option Z.
  Variable lex : prim -> string -> option pv.
  Notation execs := (execs nucid lex).
  Notation exec := (exec nucid lex).

  (** the code for [d] declares [x] with the value [d] *)
  Definition good (t : ctype) (d : val) (x : string) : Prop :=
    exists code, val_code t d x = Some code /\
      (forall sc rest, execs code (sc :: rest) = Ok (((x, CV (ity t) d) :: sc) :: rest)) /\
      (forall sc rest, assoc x sc = None ->
         chks code (sc :: rest) = Some (((x, KV (ity t)) :: sc) :: rest)).

  Definition start (c : seqkind) (dn l : list val) : val :=
    match c with
    | KVector => VSeq (dn ++ repeat VUndef (List.length l))
    | KList => VSeq dn
    | KSet => VSet dn
    end.
  Definition final (c : seqkind) (l : list val) : val :=
    match c with KSet => VSet l | _ => VSeq l end.

  Lemma upd_found x c s : assoc x s <> None -> exists s', upd_scope x c s = Some s'.
  Proof.
    induction s as [|[y a] s IH]; simpl; [tauto|]. destruct (String.eqb x y); eauto.
    intro H. destruct (IH H) as (s' & ->). eauto.
  Qed.
  Lemma upd_top x c c' sc : upd_scope x c ((x, c') :: sc) = Some ((x, c) :: sc).
  Proof. simpl. now rewrite String.eqb_refl. Qed.

  Lemma elems_good x t c : x <> "elem" -> forall l i,
    Forall (fun v => has_type t v /\ good t v "elem") l ->
    exists s, elems_of x t c i l = Some s /\
      (forall dn sc rest, List.length dn = i ->
         (c = KSet -> StronglySorted (fun a b => val_cmp b a = Gt) (dn ++ l)) ->
         execs s ([] :: ((x, CV (TC c t) (start c dn l)) :: sc) :: rest) =
         Ok ([] :: ((x, CV (TC c t) (final c (dn ++ l))) :: sc) :: rest)) /\
      (forall sc rest, chks s ([] :: ((x, KV (TC c t)) :: sc) :: rest) =
         Some ([] :: ((x, KV (TC c t)) :: sc) :: rest)).
  Proof.
    intro X. assert (X1 : String.eqb x "elem" = false) by now apply String.eqb_neq.
    induction l as [|v l IH]; intros i H.
    - exists []. split; [reflexivity|]. split; [|reflexivity].
      intros dn sc rest _ _. simpl. rewrite app_nil_r. destruct c; simpl; now rewrite ?app_nil_r.
    - inversion H as [|v' l' [T (s0 & E0 & R0 & C0)] H']; subst.
      destruct (IH (S i) H') as (s & E & R & C).
      eexists. split; [|split].
      + cbn [elems_of]. rewrite E0. cbn [obind].
        change ((fix elems (t : ctype) (c : seqkind) (i : nat) (l : list val) {struct l} :=
            match l with
            | [] => Some []
            | v :: l =>
                obind (val_code t v "elem") (fun s =>
                obind (elems t c (S i) l) (fun r =>
                Some (SBlock (s ++ [match c with
                                    | KVector => SAt x (ILit i) "elem"
                                    | KSet => SInsert x "elem"
                                    | KList => SPush x "elem"
                                    end]) :: r)))
            end) t c (S i) l) with (elems_of x t c (S i) l).
        rewrite E. reflexivity.
      + intros dn sc rest Ln So. rewrite execs_cons, exec_block, execs_app, R0. cbn [lift].
        replace (dn ++ v :: l) with ((dn ++ [v]) ++ l) in So |- * by (rewrite <- app_assoc; reflexivity).
        rewrite <- (R (dn ++ [v]) sc rest); [|rewrite app_length; simpl; lia|exact So].
        rewrite execs_cons.
        replace (exec _ _) with (Ok ([("elem", CV (ity t) v)] :: [] ::
           ((x, CV (TC c t) (start c (dn ++ [v]) l)) :: sc) :: rest)); [reflexivity|].
        symmetry. destruct c; cbn [PpModel.exec ix_val need]; unfold value_of, typed; cbn [look assoc start];
          rewrite String.eqb_refl, X1, String.eqb_refl; cbn [need]; rewrite (has_type_cvt _ _ T).
        * rewrite app_length. simpl List.length.
          replace (Nat.ltb i _) with true by (symmetry; apply Nat.ltb_lt; lia).
          simpl repeat. rewrite <- Ln, upd_middle. unfold write. cbn [upd_env upd_scope]. rewrite X1.
          rewrite String.eqb_refl. rewrite <- app_assoc. reflexivity.
        * assert (Sg : set_insert v dn = dn ++ [v]).
          { apply set_insert_last. specialize (So eq_refl). clear -So.
            induction dn as [|y dn IH]; constructor.
            - simpl in So. inversion So as [|? ? S F]; subst. apply (proj1 (Forall_forall _ _) F).
              apply in_or_app. left. apply in_or_app. right. now left.
            - apply IH. simpl in So. now inversion So. }
          rewrite Sg. unfold write. cbn [upd_env upd_scope]. rewrite X1, String.eqb_refl. reflexivity.
        * unfold write. cbn [upd_env upd_scope]. rewrite X1, String.eqb_refl. reflexivity.
      + intros sc rest. rewrite chks_cons, chk_block, chks_app, (C0 [] _ eq_refl). cbn [obind].
        rewrite chks_cons.
        replace (chk _ _) with (Some ([("elem", KV (ity t))] :: [] :: ((x, KV (TC c t)) :: sc) :: rest)).
        2:{ symmetry. destruct c; cbn [chk ix_ok]; unfold fits, type_of; cbn [look assoc];
            rewrite X1, !String.eqb_refl, (ity_assignable _ _ T); reflexivity. }
        cbn [obind chks]. apply C.
  Qed.

  Lemma items_good x k v : x <> "key" -> x <> "val" -> forall l,
    Forall (fun p => (has_type k (fst p) /\ good k (fst p) "key") /\
                     (has_type v (snd p) /\ good v (snd p) "val")) l ->
    exists s, items_of x k v l = Some s /\
      (forall dn sc rest,
         StronglySorted (fun a b => val_cmp (fst b) (fst a) = Gt) (dn ++ l) ->
         execs s ([] :: ((x, CV (TMap k v) (VMap dn)) :: sc) :: rest) =
         Ok ([] :: ((x, CV (TMap k v) (VMap (dn ++ l))) :: sc) :: rest)) /\
      (forall sc rest, chks s ([] :: ((x, KV (TMap k v)) :: sc) :: rest) =
         Some ([] :: ((x, KV (TMap k v)) :: sc) :: rest)).
  Proof.
    intros X X'. assert (X1 : String.eqb x "key" = false) by now apply String.eqb_neq.
    assert (X2 : String.eqb x "val" = false) by now apply String.eqb_neq.
    induction l as [|[a b] l IH]; intros H.
    - exists []. split; [reflexivity|]. split; [|reflexivity].
      intros dn sc rest _. simpl. now rewrite app_nil_r.
    - inversion H as [|v' l' [[T (s0 & E0 & R0 & C0)] [T' (s1 & E1 & R1 & C1)]] H']; subst.
      simpl fst in *. simpl snd in *.
      destruct (IH H') as (s & E & R & C).
      eexists. split; [|split].
      + cbn [items_of]. rewrite E0. cbn [obind]. rewrite E1. cbn [obind].
        change ((fix items (tk tv : ctype) (l : list (val * val)) {struct l} : option (list stmt) :=
            match l with
            | [] => Some []
            | (k, v) :: l =>
                obind (val_code tk k "key") (fun sk =>
                obind (val_code tv v "val") (fun sv =>
                obind (items tk tv l) (fun r =>
                Some (SBlock (sk ++ sv ++ [SPut x "key" "val"]) :: r))))
            end) k v l) with (items_of x k v l).
        rewrite E. reflexivity.
      + intros dn sc rest So. rewrite execs_cons, exec_block, execs_app, R0. cbn [lift].
        rewrite execs_app, R1. cbn [lift].
        replace (dn ++ (a, b) :: l) with ((dn ++ [(a, b)]) ++ l) in So |- *
          by (rewrite <- app_assoc; reflexivity).
        rewrite <- (R (dn ++ [(a, b)]) sc rest So).
        rewrite execs_cons.
        replace (exec _ _) with (Ok ([("val", CV (ity v) b); ("key", CV (ity k) a)] :: [] ::
           ((x, CV (TMap k v) (VMap (dn ++ [(a, b)]))) :: sc) :: rest)); [reflexivity|].
        symmetry. cbn [PpModel.exec]. unfold value_of, typed. cbn [look assoc].
        rewrite X1, X2, !String.eqb_refl. simpl String.eqb. cbn [need assoc].
        rewrite (has_type_cvt _ _ T), (has_type_cvt _ _ T').
        assert (Sg : map_put a b dn = dn ++ [(a, b)]).
        { apply map_put_last. clear -So. induction dn as [|y dn IH]; constructor.
            - simpl in So. inversion So as [|? ? S F]; subst. apply (proj1 (Forall_forall _ _) F (a, b)).
              apply in_or_app. left. apply in_or_app. right. now left.
            - apply IH. simpl in So. now inversion So. }
        rewrite Sg. unfold write. cbn [upd_env upd_scope]. rewrite X1, X2, String.eqb_refl. reflexivity.
      + intros sc rest. rewrite chks_cons, chk_block, chks_app, (C0 [] _ eq_refl). cbn [obind].
        rewrite chks_app, C1 by reflexivity. cbn [obind].
        rewrite chks_cons.
        replace (chk _ _) with (Some ([("val", KV (ity v)); ("key", KV (ity k))] :: [] ::
           ((x, KV (TMap k v)) :: sc) :: rest)).
        2:{ symmetry. cbn [chk]; unfold fits, type_of; cbn [look assoc].
            rewrite X1, X2, !String.eqb_refl. simpl String.eqb. cbn [assoc].
            rewrite (ity_assignable _ _ T), (ity_assignable _ _ T'). reflexivity. }
        cbn [obind chks]. apply C.
  Qed.

  Lemma strings_all l : (fix all l := match l with [] => True | x :: l => strings_ok x /\ all l end) l ->
    Forall strings_ok l.
  Proof. induction l; constructor; tauto. Qed.
  Lemma strings_all2 l : (fix all l := match l with
                    | [] => True
                    | p :: l => strings_ok (fst p) /\ strings_ok (snd p) /\ all l
                    end) l ->
    Forall (fun p : val * val => strings_ok (fst p) /\ strings_ok (snd p)) l.
  Proof. induction l; constructor; tauto. Qed.
  Lemma clear_elem t : is_seq t = false -> clear "elem" t.
  Proof. destruct t; simpl; try discriminate; auto; split; discriminate. Qed.
  Lemma clear_part t : is_pair t = false -> clear "first" t /\ clear "second" t.
  Proof. destruct t; simpl; try discriminate; auto; repeat split; discriminate. Qed.
  Lemma clear_item t : is_tmap t = false -> clear "key" t /\ clear "val" t.
  Proof. destruct t; simpl; try discriminate; auto; repeat split; discriminate. Qed.

  Lemma val_good t : forall d x, has_type t d -> strings_ok d -> unnested t -> clear x t -> good t d x.
  Proof.
    induction t as [p|c t IH|a IHa b IHb|k IHk v IHv]; intros d x T S U X.
    - destruct d as [|w| | | |]; simpl in T; try tauto.
      exists [SInit (init_prim p) x w]. split; [reflexivity|]. split.
      + intros sc rest. cbn. now rewrite (has_prim_cvt _ _ (has_prim_init _ _ T)).
      + intros sc rest A. rewrite chks_cons. cbn [chk tdecl].
        replace (literal_ok (init_prim p) w) with true.
        * rewrite A. reflexivity.
        * symmetry. destruct p, w; simpl in T |- *; tauto || auto.
    - destruct U as [U1 U2]. simpl in X.
      assert (K : exists l, d = final c l /\ Forall (has_type t) l /\ Forall strings_ok l /\
        (c = KSet -> StronglySorted (fun a b => val_cmp b a = Gt) l)).
      { destruct c, d as [| |l|l| |]; simpl in T; try tauto; exists l;
          (split; [reflexivity|]); (split; [tauto|]); (split; [apply strings_all, S|]);
          try discriminate; intros _; tauto. }
      destruct K as (l & -> & Tl & Sl & So).
      assert (G : Forall (fun v => has_type t v /\ good t v "elem") l).
      { rewrite Forall_forall in *. intros v Hv. split; auto. apply IH; auto. now apply clear_elem. }
      destruct (elems_good x t c X l O G) as (s & E & R & C).
      exists ([SDecl (TC c t) x] ++
              (match c with KVector => [SResize x (ILit (List.length l))] | _ => [] end) ++ [SBlock s]).
      split; [|split].
      + destruct c; cbn [final val_code].
        * change (obind (elems_of x t KVector 0 l)
            (fun s => Some [SDecl (TC KVector t) x; SResize x (ILit (List.length l)); SBlock s]) = 
            Some ([SDecl (TC KVector t) x] ++ [SResize x (ILit (List.length l))] ++ [SBlock s])).
          now rewrite E.
        * change (obind (elems_of x t KSet 0 l)
            (fun s => Some [SDecl (TC KSet t) x; SBlock s]) = 
            Some ([SDecl (TC KSet t) x] ++ [] ++ [SBlock s])).
          now rewrite E.
        * change (obind (elems_of x t KList 0 l)
            (fun s => Some [SDecl (TC KList t) x; SBlock s]) = 
            Some ([SDecl (TC KList t) x] ++ [] ++ [SBlock s])).
          now rewrite E.
      + intros sc rest. specialize (R [] sc rest eq_refl So).
        rewrite execs_app.
        change (execs [SDecl (TC c t) x] (sc :: rest))
          with (Ok (((x, CV (TC c t) (fresh (TC c t))) :: sc) :: rest)).
        cbn [lift]. rewrite execs_app.
        replace (execs match c with KVector => [SResize x (ILit (List.length l))] | _ => [] end
                  (((x, CV (TC c t) (fresh (TC c t))) :: sc) :: rest))
          with (Ok (((x, CV (TC c t) (start c [] l)) :: sc) :: rest)).
        2:{ destruct c; try reflexivity. cbn. unfold typed. cbn. rewrite String.eqb_refl. cbn.
            unfold write. cbn. rewrite String.eqb_refl. cbn. rewrite firstn_nil, Nat.sub_0_r. reflexivity. }
        cbn [lift]. rewrite execs_cons, exec_block, R. reflexivity.
      + intros sc rest A. rewrite chks_app. cbn [chks chk tdecl]. rewrite A. cbn [obind chks].
        rewrite chks_app.
        replace (chks match c with KVector => [SResize x (ILit (List.length l))] | _ => [] end
                  (((x, KV (TC c t)) :: sc) :: rest))
          with (Some (((x, KV (TC c t)) :: sc) :: rest)).
        2:{ destruct c; try reflexivity. cbn. unfold type_of. cbn. rewrite String.eqb_refl. reflexivity. }
        cbn [obind]. rewrite chks_cons, chk_block, C. reflexivity.
    - destruct d as [| | | |u w|]; simpl in T; try tauto. destruct T as [T1 T2], S as [S1 S2].
      destruct U as (U1 & U2 & U3 & U4). destruct X as [X1 X2].
      destruct (IHa u "first") as (s1 & E1 & R1 & C1); auto. { now apply clear_part. }
      destruct (IHb w "second") as (s2 & E2 & R2 & C2); auto. { now apply clear_part. }
      exists [SDecl (TPair a b) x; SBlock (s1 ++ s2 ++ [SFst x "first"; SSnd x "second"])].
      assert (Y1 : String.eqb x "first" = false) by now apply String.eqb_neq.
      assert (Y2 : String.eqb x "second" = false) by now apply String.eqb_neq.
      split; [|split].
      + cbn [val_code]. rewrite E1. cbn [obind]. rewrite E2. reflexivity.
      + intros sc rest. rewrite execs_cons. cbn [PpModel.exec lift declv fresh].
        rewrite execs_cons, exec_block, execs_app, R1. cbn [lift]. rewrite execs_app, R2. cbn [lift].
        rewrite execs_cons.
        replace (exec (SFst x "first") _) with (Ok ([("second", CV (ity b) w); ("first", CV (ity a) u)] ::
           ((x, CV (TPair a b) (VPair u VUndef)) :: sc) :: rest)).
        2:{ symmetry. cbn [PpModel.exec]. unfold value_of, typed. cbn [look assoc].
            rewrite Y1, Y2, !String.eqb_refl. simpl String.eqb. cbn [need assoc].
            rewrite (has_type_cvt _ _ T1). unfold write. cbn [upd_env upd_scope].
            rewrite Y1, Y2, String.eqb_refl. reflexivity. }
        cbn [lift]. rewrite execs_cons.
        replace (exec (SSnd x "second") _) with (Ok ([("second", CV (ity b) w); ("first", CV (ity a) u)] ::
           ((x, CV (TPair a b) (VPair u w)) :: sc) :: rest)); [reflexivity|].
        symmetry. cbn [PpModel.exec]. unfold value_of, typed. cbn [look assoc].
        rewrite Y1, Y2, !String.eqb_refl. simpl String.eqb. cbn [need assoc].
        rewrite (has_type_cvt _ _ T2). unfold write. cbn [upd_env upd_scope].
        rewrite Y1, Y2, String.eqb_refl. reflexivity.
      + intros sc rest A. rewrite chks_cons. cbn [chk tdecl]. rewrite A. cbn [obind].
        rewrite chks_cons, chk_block, chks_app, C1 by reflexivity. cbn [obind].
        rewrite chks_app, C2 by reflexivity. cbn [obind]. rewrite chks_cons. cbn [chk].
        unfold fits, type_of. cbn [look assoc]. rewrite Y1, Y2, !String.eqb_refl. simpl String.eqb.
        cbn [assoc]. rewrite (ity_assignable _ _ T1). cbn [when obind]. rewrite chks_cons. cbn [chk].
        unfold fits, type_of. cbn [look assoc]. rewrite Y1, Y2, !String.eqb_refl. simpl String.eqb.
        cbn [assoc]. rewrite (ity_assignable _ _ T2). reflexivity.
    - destruct d as [| | | | |l]; simpl in T; try tauto. destruct T as [T1 T2].
      destruct U as (U1 & U2 & U3 & U4). destruct X as [X1 X2]. simpl in S. apply strings_all2 in S.
      destruct (items_good x k v X1 X2 l) as (s & E & R & C).
      { rewrite Forall_forall in *. intros p Hp. destruct (T1 p Hp), (S p Hp).
        destruct (clear_item k U1), (clear_item v U2). auto. }
      exists [SDecl (TMap k v) x; SBlock s]. split; [|split].
      + cbn [val_code]. change (obind (items_of x k v l) (fun s => Some [SDecl (TMap k v) x; SBlock s]) =
          Some [SDecl (TMap k v) x; SBlock s]). now rewrite E.
      + intros sc rest. rewrite execs_cons. cbn [PpModel.exec lift declv fresh].
        rewrite execs_cons, exec_block, (R [] sc rest T2). reflexivity.
      + intros sc rest A. rewrite chks_cons. cbn [chk tdecl]. rewrite A. cbn [obind].
        rewrite chks_cons, chk_block, C. reflexivity.
  Qed.
End Run.
