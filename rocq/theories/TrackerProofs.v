From Verif Require Import Base CompModel PackageModel ResourceModel ResourceSpec BufModel BufSpec
  BufProofs1 BufProofs2 BufProofs3 BufProofs4 BufProofs5 BufProofs6 BufProofs7 BufProperties
  TrackerModel TrackerSpec.
Local Open Scope Q_scope.

Lemma tracks_nonempty bufs l bs : tracks bufs l bs -> (bs = [] <-> l = []).
Proof. destruct 1; split; congruence. Qed.
Lemma sum_quantity_ok bufs l bs : tracks bufs l bs -> forall acc, exists q,
  sum_quantity bufs l acc = Ok q /\ q == acc + qsum (map quantity bs).
Proof.
  induction 1 as [|i l b bs Hi H IH]; intros acc; cbn [sum_quantity].
  - exists acc. split; [reflexivity|]. cbn. ring.
  - rewrite Hi. destruct (IH (acc + quantity b)) as [q [E Q]]. exists q. split; [exact E|].
    rewrite Q. cbn [map qsum fold_right]. unfold qsum. cbn [fold_right]. ring.
Qed.
Lemma trk_num_ok t : t_bufs t <> [] -> trk_num t = Ok (Z.of_nat (length (t_bufs t))).
Proof. unfold trk_num. destruct (t_bufs t); [congruence|reflexivity]. Qed.
Lemma quantity_ok bufs t bs : tracks bufs (t_bufs t) bs -> bs <> [] -> exists q,
  trk_quantity bufs t = Ok q /\ q == qsum (map quantity bs).
Proof.
  intros H N. unfold trk_quantity. rewrite trk_num_ok.
  - cbn [rbind]. destruct (sum_quantity_ok _ _ _ H 0) as [q [E Q]]. exists q. split; [exact E|]. rewrite Q. ring.
  - intro K. apply N. now apply (tracks_nonempty _ _ _ H).
Qed.
Lemma content_quantity E w bs : (forall b, In b bs -> in_use E EMaterial w b) -> qsum (map quantity bs) == content w bs.
Proof.
  unfold content. induction bs as [|b bs IH]; intros H; [reflexivity|].
  cbn [map qsum fold_right]. unfold qsum in *. cbn [fold_right].
  rewrite IH by (intros; apply H; now right).
  destruct (C08_accounted E EMaterial w b) as [A _]; [apply H; now left|]. rewrite A. reflexivity.
Qed.
Lemma sum_capacity_ok bufs l bs : tracks bufs l bs -> forall acc, exists c,
  sum_capacity bufs l acc = Ok c /\
  match c, acc, osum (map b_cap bs) with
  | Some c, Some a, Some s => c == a + s
  | None, Some _, None => True
  | None, None, _ => True
  | _, _, _ => False
  end.
Proof.
  induction 1 as [|i l b bs Hi H IH]; intros acc; cbn [sum_capacity].
  - exists acc. split; [reflexivity|]. cbn. destruct acc; [ring|exact I].
  - rewrite Hi. destruct (IH (match acc, b_cap b with Some a, Some c => Some (a + c) | _, _ => None end)) as [c [E C]].
    exists c. split; [exact E|]. cbn [map osum fold_right]. fold (osum (map b_cap bs)).
    destruct acc as [a|], (b_cap b) as [x|], c as [c|], (osum (map b_cap bs)) as [s|]; try exact I; try contradiction.
    rewrite C. ring.
Qed.
Lemma capacity_ok bufs t bs : tracks bufs (t_bufs t) bs -> bs <> [] -> exists c,
  trk_capacity bufs t = Ok c /\ c <= t_max t /\ ole c (osum (map b_cap bs)) /\
  (c == t_max t \/ exists s, osum (map b_cap bs) = Some s /\ c == s).
Proof.
  intros H N. unfold trk_capacity, trk_capacity_bufs. rewrite trk_num_ok
    by (intro K; apply N; now apply (tracks_nonempty _ _ _ H)).
  cbn [rbind]. destruct (sum_capacity_ok _ _ _ H (Some 0)) as [c [E C]]. rewrite E. cbn [rbind].
  eexists. split; [reflexivity|]. unfold qmin.
  destruct c as [c|], (osum (map b_cap bs)) as [s|]; try contradiction; cbn.
  - destruct (Qltb_spec (t_max t) c) as [L|L].
    + repeat split; [lra|lra|]. left. reflexivity.
    + repeat split; [lra|lra|]. right. exists s. split; [reflexivity|lra].
  - repeat split; [lra|]. left. reflexivity.
Qed.
Lemma space_ok bufs t bs : tracks bufs (t_bufs t) bs -> bs <> [] -> exists s c q,
  trk_space bufs t = Ok s /\ trk_capacity bufs t = Ok c /\ trk_quantity bufs t = Ok q /\
  0 <= s /\ (q <= c -> s == c - q) /\ (c <= q -> s == 0).
Proof.
  intros H N. destruct (capacity_ok _ _ _ H N) as [c [C _]]. destruct (quantity_ok _ _ _ H N) as [q [Q _]].
  unfold trk_space. rewrite C. cbn [rbind]. rewrite Q. cbn [rbind].
  exists (qmax 0 (c - q)), c, q. repeat split; unfold qmax; destruct (Qltb_spec 0 (c - q)); intros; lra.
Qed.
Lemma osum_space bs : Forall within_capacity bs -> forall q, q == qsum (map quantity bs) ->
  match osum (map b_cap bs), osum (map space bs) with
  | Some c, Some s => s == c - q /\ 0 <= s
  | None, None => True
  | _, _ => False
  end.
Proof.
  induction 1 as [|b bs W F IH]; intros q Hq.
  - cbn in *. lra.
  - cbn [map qsum] in Hq. specialize (IH _ (Qeq_refl _)). cbn [map osum fold_right].
    fold (osum (map b_cap bs)). fold (osum (map space bs)).
    set (SS := osum (map space bs)) in *. set (CC := osum (map b_cap bs)) in *.
    unfold within_capacity in W. unfold space. destruct (b_cap b) as [c|]; [|exact I].
    destruct CC as [C|], SS as [S|]; try contradiction; [|exact I].
    cbn in W. unfold quantity in *. unfold qmax. destruct (Qltb_spec 0 (c - b_qty b)); lra.
Qed.
Lemma space_bound bufs t bs s : tracks bufs (t_bufs t) bs -> bs <> [] -> trk_space bufs t = Ok s ->
  Forall within_capacity bs -> ole s (osum (map space bs)).
Proof.
  intros H N S W. destruct (space_ok _ _ _ H N) as [s' [c [q [S' [C [Q [P [L1 L2]]]]]]]].
  rewrite S in S'. injection S' as <-.
  destruct (capacity_ok _ _ _ H N) as [c' [C' [_ [O _]]]]. rewrite C in C'. injection C' as <-.
  destruct (quantity_ok _ _ _ H N) as [q' [Q' QE]]. rewrite Q in Q'. injection Q' as <-.
  pose proof (osum_space bs W q QE) as K.
  destruct (osum (map b_cap bs)) as [cs|], (osum (map space bs)) as [ss|]; try contradiction; [|exact I].
  cbn in O |- *.
  destruct (Qlt_le_dec c q) as [X|X]; [rewrite L2 by lra; lra|]. rewrite L1 by lra. lra.
Qed.

(** Changing one buffer of the heap. *)
Lemma tracks_upd bufs l bs i b' : tracks bufs l bs -> ~ In i l -> tracks (upd bufs i b') l bs.
Proof.
  induction 1 as [|j l b bs Hj H IH]; intros N; constructor.
  - rewrite nth_upd_other; [exact Hj|]. intro; subst; apply N; now left.
  - apply IH. intro; apply N; now right.
Qed.
Lemma tracks_upd_once bufs l bs i b b' : tracks bufs l bs -> NoDup l -> In i l -> nth_error bufs i = Some b ->
  exists bs', tracks (upd bufs i b') l bs' /\ qsum (map quantity bs') == qsum (map quantity bs) - quantity b + quantity b' /\
    (b_cap b' = b_cap b -> map b_cap bs' = map b_cap bs).
Proof.
  induction 1 as [|j l c bs Hj H IH]; intros N I Hb; [destruct I|].
  inversion N; subst. destruct I as [->|I].
  - rewrite Hj in Hb. injection Hb as ->. exists (b' :: bs). repeat split.
    + constructor; [|now apply tracks_upd]. apply nth_upd_same. apply nth_error_Some. congruence.
    + cbn [map qsum]. ring.
    + intros E. cbn. now rewrite E.
  - destruct (IH H3 I Hb) as [bs' [T [Q C]]]. exists (c :: bs'). repeat split.
    + constructor; [|exact T]. rewrite nth_upd_other; [exact Hj|]. intro; subst; contradiction.
    + cbn [map qsum]. rewrite Q. ring.
    + intros E. cbn. now rewrite (C E).
Qed.
Lemma tracks_in bufs l bs i : tracks bufs l bs -> In i l -> exists b, nth_error bufs i = Some b /\ In b bs.
Proof.
  induction 1 as [|j l c bs Hj H IH]; intros I; [destruct I|]. destruct I as [->|I].
  - exists c. split; [exact Hj|now left].
  - destruct (IH I) as [b [A B]]. exists b. split; [exact A|now right].
Qed.
(** Adding an amount that fits to one of the buffers. *)
Lemma room bufs t bs i b b' s a : tracks bufs (t_bufs t) bs -> NoDup (t_bufs t) -> In i (t_bufs t) ->
  nth_error bufs i = Some b -> trk_buf_space bufs i t = Ok s -> 0 <= a <= s ->
  b_cap b' = b_cap b -> quantity b' == quantity b + a ->
  exists c q c' q', trk_capacity bufs t = Ok c /\ trk_quantity bufs t = Ok q /\
    trk_capacity (upd bufs i b') t = Ok c' /\ trk_quantity (upd bufs i b') t = Ok q' /\
    c' == c /\ q' == q + a /\ (q <= c -> q' <= c') /\ (ole (quantity b) (b_cap b) -> ole (quantity b') (b_cap b')).
Proof.
  intros H N I Hb S A C Q.
  assert (bs <> []) as NE. { destruct (tracks_in _ _ _ _ H I) as [x [_ X]]. intros ->. destruct X. }
  destruct (space_ok _ _ _ H NE) as [s0 [c [q [S0 [Cc [Qq [P [L1 L2]]]]]]]].
  destruct (tracks_upd_once _ _ _ _ _ b' H N I Hb) as [bs' [H' [Q' C']]].
  assert (bs' <> []) as NE'.
  { destruct (tracks_in _ _ _ _ H' I) as [x [_ X]]. intros ->. destruct X. }
  destruct (capacity_ok _ _ _ H' NE') as [c' [Cc' _]].
  destruct (quantity_ok _ _ _ H' NE') as [q' [Qq' QE']].
  destruct (quantity_ok _ _ _ H NE) as [q1 [Qq1 QE]]. rewrite Qq in Qq1. injection Qq1 as <-.
  exists c, q, c', q'. repeat split; try assumption.
  - enough (c' = c \/ c' == c) as [->|X]; [reflexivity|exact X|].
    clear - H H' Cc Cc' C C' NE NE'. specialize (C' C).
    unfold trk_capacity, trk_capacity_bufs in *.
    rewrite trk_num_ok in Cc, Cc' by (intro K; apply NE; now apply (tracks_nonempty _ _ _ H)).
    cbn [rbind] in *.
    destruct (sum_capacity_ok _ _ _ H (Some 0)) as [x [E X]]. destruct (sum_capacity_ok _ _ _ H' (Some 0)) as [x' [E' X']].
    rewrite E in Cc. rewrite E' in Cc'. cbn [rbind] in *. injection Cc as <-. injection Cc' as <-. rewrite C' in X'.
    destruct x, x', (osum (map b_cap bs)); try contradiction; [|left; reflexivity]. right.
    unfold qmin. destruct (Qltb_spec (t_max t) q), (Qltb_spec (t_max t) q0); lra.
  - rewrite QE', Q', QE, Q. ring.
  - intros L. enough (c' == c) as ->.
    + rewrite QE', Q', <- QE, Q.
      unfold trk_buf_space in S. rewrite Hb, S0 in S. cbn [rbind] in S. injection S as <-.
      assert (a <= s0) as AS by (destruct (space b); [pose proof (qmin_r q0 s0)|]; lra).
      specialize (L1 L). lra.
    + clear - H H' Cc Cc' C C' NE NE'. specialize (C' C).
      unfold trk_capacity, trk_capacity_bufs in *.
      rewrite trk_num_ok in Cc, Cc' by (intro K; apply NE; now apply (tracks_nonempty _ _ _ H)).
      cbn [rbind] in *.
      destruct (sum_capacity_ok _ _ _ H (Some 0)) as [x [E X]]. destruct (sum_capacity_ok _ _ _ H' (Some 0)) as [x' [E' X']].
      rewrite E in Cc. rewrite E' in Cc'. cbn [rbind] in *. injection Cc as <-. injection Cc' as <-. rewrite C' in X'.
      destruct x, x', (osum (map b_cap bs)); try contradiction; [|reflexivity].
      unfold qmin. destruct (Qltb_spec (t_max t) q), (Qltb_spec (t_max t) q0); lra.
  - rewrite C. intros W. unfold ole in *.
    unfold trk_buf_space in S. rewrite Hb, S0 in S. cbn [rbind] in S. injection S as <-.
    unfold space in A. destruct (b_cap b) as [x|]; [|exact W].
    unfold quantity in *. unfold qmin, qmax in A.
    destruct (Qltb_spec 0 (x - b_qty b)).
    + destruct (Qltb_spec s0 (x - b_qty b)); lra.
    + destruct (Qltb_spec s0 0); lra.
Qed.

(** set_capacity *)
Lemma set_capacity_ok bufs eps cap t bs : tracks bufs (t_bufs t) bs -> bs <> [] ->
  exists q, trk_quantity bufs t = Ok q /\
  ((cap + eps < q /\ trk_set_capacity bufs eps cap t = (Throw ValueError, t)) \/
   (q <= cap + eps /\ trk_set_capacity bufs eps cap t = (Ok tt, mkTrk cap (t_bufs t)))).
Proof.
  intros H N. destruct (quantity_ok _ _ _ H N) as [q [Q _]]. exists q. split; [exact Q|].
  unfold trk_set_capacity. rewrite Q. destruct (Qltb_spec eps (q - cap)); [left|right]; split; try reflexivity; lra.
Qed.
Lemma uninit bufs t : t_bufs t = [] ->
  trk_quantity bufs t = Throw ValueError /\ trk_capacity bufs t = Throw ValueError /\
  trk_space bufs t = Throw ValueError /\ trk_empty bufs t = Throw ValueError /\
  (forall i, trk_has i t = Throw ValueError) /\
  (forall eps cap, trk_set_capacity bufs eps cap t = (Throw ValueError, t)).
Proof.
  intros E. unfold trk_quantity, trk_capacity, trk_space, trk_empty, trk_has, trk_set_capacity, trk_capacity, trk_capacity_bufs, trk_quantity, trk_num.
  rewrite E. repeat split.
Qed.
Lemma hist_limit eps tr s : trk_hist eps tr s -> t_max (snd s) = limit_set tr.
Proof.
  induction 1 as [|tr [bufs t] o r s' H IH E U]; [reflexivity|].
  unfold limit_set in *. rewrite fold_left_app. cbn [fold_left]. rewrite <- IH. cbn [snd] in *.
  destruct o as [l m|c|new]; cbn [trk_step] in E.
  - unfold trk_init in E. destruct l as [|i l]; [injection E as <- <-; reflexivity|].
    destruct (Qleb m 0); injection E as <- <-; reflexivity.
  - unfold trk_set_capacity in E. destruct (trk_quantity bufs t) as [q|e|].
    + destruct (Qltb eps (q - c)); injection E as <- <-; reflexivity.
    + injection E as <- <-. reflexivity.
    + injection E as <- <-. reflexivity.
  - injection E as <- <-. reflexivity.
Qed.

(** ** The claims *)
Lemma tracker_quantity : forall E w bufs t bs,
  tracks bufs (t_bufs t) bs -> bs <> [] -> (forall b, In b bs -> in_use E EMaterial w b) ->
  exists q, trk_quantity bufs t = Ok q /\ q == content w bs /\ trk_empty bufs t = Ok (Qeqb q 0).
Proof.
  intros E w bufs t bs H N U. destruct (quantity_ok bufs t bs H N) as [q [Q X]]. exists q.
  split; [exact Q|]. split; [rewrite X; now apply (content_quantity E)|].
  unfold trk_empty. now rewrite Q.
Qed.
Lemma tracker_capacity : forall eps tr bufs t bs,
  trk_hist eps tr (bufs, t) -> tracks bufs (t_bufs t) bs -> bs <> [] ->
  exists c, trk_capacity bufs t = Ok c /\ c <= limit_set tr /\ ole c (osum (map b_cap bs)) /\
  (c == limit_set tr \/ exists s, osum (map b_cap bs) = Some s /\ c == s).
Proof.
  intros eps tr bufs t bs H T N. rewrite <- (hist_limit _ _ _ H). now apply capacity_ok.
Qed.
Lemma tracker_space : forall bufs t bs, tracks bufs (t_bufs t) bs -> bs <> [] ->
  exists s c q, trk_space bufs t = Ok s /\ trk_capacity bufs t = Ok c /\ trk_quantity bufs t = Ok q /\
  0 <= s /\ (q <= c -> s == c - q) /\ (c <= q -> s == 0) /\
  (Forall within_capacity bs -> ole s (osum (map space bs))).
Proof.
  intros bufs t bs H N. destruct (space_ok _ _ _ H N) as [s [c [q [S [C [Q [P [L1 L2]]]]]]]].
  exists s, c, q. split; [exact S|]. split; [exact C|]. split; [exact Q|]. split; [exact P|].
  split; [exact L1|]. split; [exact L2|]. now apply space_bound with bufs t.
Qed.
Lemma tracker_room : forall E w bufs t bs i b s r j w' b' res,
  tracks bufs (t_bufs t) bs -> NoDup (t_bufs t) -> In i (t_bufs t) -> nth_error bufs i = Some b ->
  in_use E EMaterial w b -> 0 <= e_eps E ->
  nth_error (w_res w) j = Some r -> 0 <= r_qty r -> casts EMaterial r = true -> ~ In j (b_rs b) ->
  (b_bulk b = true -> mixable w (b_rs b ++ [j])) ->
  trk_buf_space bufs i t = Ok s -> r_qty r <= s ->
  bstep E EMaterial (BPush j) (w, b) = (res, (w', b')) -> res <> UB ->
  res = Ok [] /\
  exists c q c' q', trk_capacity bufs t = Ok c /\ trk_quantity bufs t = Ok q /\
    trk_capacity (upd bufs i b') t = Ok c' /\ trk_quantity (upd bufs i b') t = Ok q' /\
    c' == c /\ q' == q + r_qty r /\ (q <= c -> q' <= c').
Proof.
  intros E w bufs t bs i b s r j w' b' res H N I Hb U Ep Hj R0 Cs NI B S RS St NU.
  assert (fits (e_eps E) (r_qty r) b) as F.
  { unfold trk_buf_space in S. rewrite Hb in S. destruct (trk_space bufs t) as [z| |]; try discriminate.
    cbn [rbind] in S. injection S as <-. unfold fits. destruct (space b) as [x|]; [|exact Logic.I].
    pose proof (qmin_l x z). lra. }
  destruct (C11_push E EMaterial w b j res w' b' U St NU) as [r' [Hr' [K|[_ [_ K]]]]].
  { intros Bk. split; [discriminate|now apply B]. }
  - destruct K as [-> [_ [_ [_ [Q _]]]]]. split; [reflexivity|]. rewrite Hj in Hr'. injection Hr' as <-.
    assert (b_cap b' = b_cap b) as Cp by (apply (C08_push_lemma E EMaterial w b (BPush j) [j] [] w' b' U eq_refl St); exact Logic.I).
    destruct (room bufs t bs i b b' s (r_qty r) H N I Hb S (conj R0 RS) Cp Q)
      as [c [q [c' [q' [A1 [A2 [A3 [A4 [A5 [A6 [A7 _]]]]]]]]]]].
    exists c, q, c', q'. auto 10.
  - rewrite Hj in Hr'. injection Hr' as <-. exfalso.
    destruct K as [[_ K]|[[_ K]|[_ K]]]; [congruence|contradiction|contradiction].
Qed.
Lemma nonpositive_capacity : forall eps, 0 < eps -> forall t bs bufs,
  tracks bufs (t_bufs t) bs -> bs <> [] -> trk_quantity bufs t = Ok 0 ->
  trk_set_capacity bufs eps (- (eps / 2)) t = (Ok tt, mkTrk (- (eps / 2)) (t_bufs t)).
Proof.
  intros eps P t bs bufs H N Q. unfold trk_set_capacity. rewrite Q.
  assert (eps / 2 < eps) as L. { apply Qlt_shift_div_r; lra. }
  destruct (Qltb_spec eps (0 - - (eps / 2))); [exfalso; lra|reflexivity].
Qed.
