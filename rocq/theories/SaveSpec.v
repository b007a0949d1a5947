(** * Specification vocabulary for generated copying, saving and restoring of agents (C59). *)
From Coq Require Import String.
From Verif Require Import Base CompModel PackageModel ResourceModel ResourceSpec BufModel BufSpec SaveModel.
Open Scope Q_scope.

(** A class the generator can serve: members have different names, none of them the name of a variable in a generated
    method, none is a ResMap (the generated code is not C++: GetVal<ResMap<K,R> > has no such database type), and a
    capacity is a number or a plain member. *)
Definition taken_names : list string := ["m"; "b"; "qr"; "di"; "invs"; "inv"]%string.
Record class_ok (c : vars) : Prop := {
  ok_names : NoDup (map fst c);
  ok_free : forall x, In x (map fst c) -> ~ In x taken_names;
  ok_nomap : forall x i k T, In (x, Var i) c -> i_type i <> TyMap k T;
  ok_caps : forall x i y, In (x, Var i) c -> i_cap i = Some (CapVar y) ->
    exists j t, In (y, Var j) c /\ i_type j = TyPlain t }.

Definition plain_var (c : vars) (x : string) : Prop := exists i t, In (x, Var i) c /\ i_type i = TyPlain t.
Definition buf_var (c : vars) (x : string) (T : elem) : Prop := exists i, In (x, Var i) c /\ i_type i = TyBuf T.
Definition trk_var (c : vars) (x : string) : Prop := exists i, In (x, Var i) c /\ i_type i = TyTrk.

(** An object of the class has its members. *)
Record object_of (c : vars) (o : object) : Prop := {
  of_plain : forall x, plain_var c x -> exists v, find x o = Some (MVal v);
  of_buf : forall x T, buf_var c x T -> exists b, find x o = Some (MBuf T b);
  of_trk : forall x, trk_var c x -> exists q l, find x o = Some (MTrk q l) }.

(** What the constructor leaves: empty buffers with settings of its own, and trackers it has initialised. *)
Record just_constructed (c : vars) (o : object) : Prop := {
  jc_of : object_of c o;
  jc_empty : forall x T b, buf_var c x T -> find x o = Some (MBuf T b) -> b_rs b = [] /\ b_present b = [] /\ b_qty b == 0;
  jc_trk : forall x q l, trk_var c x -> find x o = Some (MTrk q l) ->
    l <> [] /\ forall y, In y l -> exists T b, find y o = Some (MBuf T b) }.

(** A buffer as an agent has it between time steps: in use, of a capacity that is respected, holding resources of its
    own class, which are unpackaged if the buffer does not keep packages. *)
Record settled (E : env) (w : world) (T : elem) (b : buf) : Prop := {
  se_use : in_use E T w b;
  se_cap : forall q, b_cap b = Some q -> 0 <= q /\ b_qty b <= q + e_eps E;
  se_held : forall i, In i (b_rs b) -> exists r, nth_error (w_res w) i = Some r /\ casts T r = true /\
    (b_keep b = true \/ r_pkg r = unpackaged_name) }.
Definition settled_agent (E : env) (c : vars) (w : world) (o : object) : Prop :=
  forall x T b, buf_var c x T -> find x o = Some (MBuf T b) -> settled E w T b.

(** Nothing a user of the member could notice has changed. *)
Definition same_member (a a' : member) : Prop :=
  match a, a' with
  | MBuf T b, MBuf T' b' =>
      T' = T /\ b_rs b' = b_rs b /\ b_qty b' == b_qty b /\ b_cap b' = b_cap b /\ b_bulk b' = b_bulk b /\
      b_keep b' = b_keep b /\ (forall i, In i (b_present b') <-> In i (b_present b))
  | _, _ => a' = a
  end.
Definition same_object (o o' : object) : Prop :=
  forall x, match find x o with
            | Some a => exists a', find x o' = Some a' /\ same_member a a'
            | None => find x o' = None
            end.

(** The capacity the annotations give the buffer [x], when the plain members are those of [o]. *)
Definition annotated_cap (c : vars) (o : object) (x : string) (q : Q) : Prop :=
  exists i, In (x, Var i) c /\
    match i_cap i with
    | None => q = inject_Z (10 ^ 300)
    | Some (CapNum n) => q = n
    | Some (CapVar y) => find y o = Some (MVal (VNum q))
    end.

(** Resource [j] of [w2] is the resource [i] of [w], reloaded. *)
Definition reloaded (w w2 : world) (i j : nat) : Prop :=
  exists r r2, nth_error (w_res w) i = Some r /\ nth_error (w_res w2) j = Some r2 /\
    r_qty r2 == r_qty r /\ r_pkg r2 = r_pkg r /\
    match r_qual r, r_qual r2 with QMat _, QMat _ | QProd _, QProd _ => True | _, _ => False end.
(** The inventories [i2] in [w2] are the inventories [i] of [w], each in its order, every resource a new object. *)
Definition reloaded_invs (w w2 : world) (i i2 : invs) : Prop :=
  forall x, Forall2 (reloaded w w2) (inv_at x i) (inv_at x i2) /\ NoDup (inv_at x i2).
