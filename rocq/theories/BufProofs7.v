(** * BufProofs7: the statements of C08-C11. *)
From Coq Require Import String.
From Verif Require Import Base CompModel CompSpec PackageModel ResourceModel ResourceSpec ResourceProofs1 ResourceProofs5
  BufModel BufSpec BufProofs1 BufProofs2 BufProofs3 BufProofs4 BufProofs5 BufProofs6.
Open Scope Q_scope.

Lemma in_use_BI E T w b : in_use E T w b -> env_ok E /\ reachable E w /\ BI w b.
Proof.
  intros [w0 [bulk [keep [b0 [tr [EO [R [F H]]]]]]]]. destruct (bhist_BI _ _ _ _ _ _ _ _ _ EO R F H). auto.
Qed.
Lemma in_use_step E T o w b res w' b' : in_use E T w b -> bstep E T o (w, b) = (res, (w', b')) -> res <> UB ->
  fair T o (w, b) (w', b') -> in_use E T w' b'.
Proof.
  intros [w0 [bulk [keep [b0 [tr [EO [R [F H]]]]]]]] Hs N Fa.
  exists w0, bulk, keep, b0, (tr ++ [(o, res)]). split; auto. split; auto. split; auto. econstructor; eauto.
Qed.

(** ** The bound of the PopVector loop never matters. *)
Lemma popvec_loop_fuel E f : forall g left w b, (length (b_rs b) < f)%nat -> (length (b_rs b) < g)%nat ->
  popvec_loop E f left (w, b) = popvec_loop E g left (w, b).
Proof.
  induction f as [|f IH]; intros g left w b Hf Hg; [lia|]. destruct g as [|g]; [lia|].
  cbn [popvec_loop]. unfold bbind, bget, bmod, bret, call. cbn [fst snd].
  destruct (Qltb 0 left) eqn:L; [|reflexivity].
  destruct (b_rs b) as [|i rest] eqn:R; [reflexivity|]. cbn [length] in Hf, Hg. cbn [fst snd].
  destruct (rget i w) as [rr w0] eqn:G. destruct (rget_ok _ _ _ _ G) as [-> Hr].
  destruct (nth_error (w_res w) i) as [r|] eqn:Hn; subst rr; [|reflexivity].
  destruct (Qltb left (r_qty r)) eqn:S1; cbn [fst snd].
  - destruct (extract_res E i left w) as [[x|e|] w1]; cbn [fst snd]; [|reflexivity|reflexivity].
    destruct (rget x w1) as [[o|e|] w2]; cbn [fst snd]; [|reflexivity|reflexivity].
    assert (Z : forall k s, (0 < k)%nat -> popvec_loop E k (left - r_qty r) s = (Ok [], s)).
    { intros [|k] s Hk; [lia|]. cbn [popvec_loop]. unfold bbind, bget, bret. destruct (Qltb_spec left (r_qty r)); [|discriminate].
      destruct (Qltb_spec 0 (left - r_qty r)); [lra|reflexivity]. }
    rewrite !Z by lia. reflexivity.
  - rewrite G. cbn [fst snd]. rewrite (IH g); [reflexivity|cbn; lia|cbn; lia].
Qed.

(** ** C08 *)
Lemma C08_accounted_lemma E T w b : in_use E T w b -> accounted w b.
Proof.
  intros H. destruct (in_use_BI _ _ _ _ H) as [_ [_ B]]. split; [|split].
  - unfold quantity. rewrite sum_vw. apply B.
  - apply B.
  - intros i Hi. apply (bi_valid _ _ B) in Hi. destruct (nth_error (w_res w) i) eqn:X; eauto. apply nth_error_None in X. lia.
Qed.
Lemma C08_bulk_lemma E T w b : in_use E T w b -> b_bulk b = true -> (count b <= 1)%Z.
Proof. intros H. destruct (in_use_BI _ _ _ _ H) as [_ [_ B]]. intros K. apply (bi_bulk _ _ B) in K. unfold count. lia. Qed.

Lemma fits_bound eps tot b c : 0 <= eps -> fits eps tot b -> b_cap b = Some c -> b_qty b + tot <= qmax c (b_qty b) + eps.
Proof.
  unfold fits, space. intros He H C. rewrite C in H. destruct (Qlt_le_dec 0 (c - b_qty b)).
  - revert H. unfold qmax. repeat qcase; intros; lra.
  - revert H. unfold qmax. repeat qcase; intros; lra.
Qed.

Lemma C08_push_lemma E T w b o is l w' b' : in_use E T w b -> push_list o = Some is ->
  bstep E T o (w, b) = (Ok l, (w', b')) -> fair T o (w, b) (w', b') ->
  quantity b' == quantity b + sum_qty w is /\ b_cap b' = b_cap b /\
  fits (e_eps E) (sum_qty w is) b.
Proof.
  intros H A Hs Fa. destruct (in_use_BI _ _ _ _ H) as [EO [R B]]. unfold quantity. rewrite sum_vw.
  destruct o; try discriminate; inversion A; subst; clear A; cbn [bstep] in Hs.
  - destruct (none_inv _ _ _ _ Hs ltac:(discriminate)) as [u [Hu [Nu Du]]].
    destruct (push_spec _ _ _ _ _ _ _ B Hu Nu) as [r [Hr Sp]].
    assert (Q1 : sumv (vw w) [i] == r_qty r).
    { rewrite sumv_cons, sumv_nil, (qv_nth _ _ _ Hr). lra. }
    unfold push_refused in Sp. destruct (negb (casts T r)).
    { destruct Sp as [-> _]. destruct Du as [[_ X]|[e [X _]]]; discriminate. }
    destruct (too_big (e_eps E) (r_qty r) b) eqn:TB.
    { destruct Sp as [-> _]. destruct Du as [[_ X]|[e [X _]]]; discriminate. }
    destruct (existsb _ _).
    { destruct Sp as [-> _]. destruct Du as [[_ X]|[e [X _]]]; discriminate. }
    destruct Sp as [w1 [b1 [E1 [_ [C [_ [_ [[[e [-> _]]|[_ [Q2 _]]] _]]]]]]]].
    { destruct Du as [[_ X]|[e' [X _]]]; discriminate. }
    inversion E1; subst. split; [lra|]. split; [apply C|]. apply too_big_fits in TB. eapply fits_eq; [|exact TB]. lra.
  - destruct (none_inv _ _ _ _ Hs ltac:(discriminate)) as [u [Hu [Nu Du]]]. destruct Fa as [Nd Mx].
    destruct (push_vector_spec _ _ _ _ _ _ _ B Hu Nu) as [[_ X]|[_ [Fi [_ X]]]].
    { exfalso. destruct Du as [[_ ->]|[e [X2 _]]]; [|discriminate]. destruct X as [[Y _]|[[Y _]|[Y _]]]; discriminate. }
    destruct (X Nd) as [_ [w1 [b1 [E1 [_ [C [_ [Q2 _]]]]]]]].
    { intros K. destruct (Mx K) as [M1 M2]. split; auto. split; auto. split; auto. now apply mixable_mixv. }
    inversion E1; subst. split; auto. split; [apply C|auto].
Qed.

Lemma C08_push_capacity_lemma E T w b o is l w' b' c : in_use E T w b -> 0 <= e_eps E -> push_list o = Some is ->
  bstep E T o (w, b) = (Ok l, (w', b')) -> fair T o (w, b) (w', b') -> b_cap b = Some c ->
  quantity b' == quantity b + sum_qty w is /\ b_cap b' = b_cap b /\ quantity b' <= qmax c (quantity b) + e_eps E.
Proof.
  intros H He A Hs Fa C. destruct (C08_push_lemma _ _ _ _ _ _ _ _ _ H A Hs Fa) as [Q1 [C1 F]]. split; auto. split; auto.
  unfold quantity in *. rewrite Q1. now apply fits_bound.
Qed.

(** Setting a capacity. *)
Lemma C08_capacity_lemma E T w b c res w' b' : bstep E T (BCapacity c) (w, b) = (res, (w', b')) ->
  w' = w /\
  ((exists x, c = Some x /\ (x < 0 \/ e_eps E < quantity b - x) /\ res = Throw ValueError /\ b' = b) \/
   (match c with Some x => 0 <= x /\ quantity b <= x + e_eps E | None => True end /\ res = Ok [] /\ b' = set_b_cap c b)).
Proof.
  cbn [bstep]. unfold none, buf_capacity, bbind, bget, bmod, bret, bthrow, quantity. cbn [fst snd].
  destruct c as [x|].
  - destruct (Qltb_spec x 0); [intros H; inversion H; subst; split; auto; left; exists x; auto|].
    destruct (Qltb_spec (e_eps E) (b_qty b - x)); intros H; inversion H; subst; split; auto.
    + left. exists x. auto.
    + right. split; auto. split; lra.
  - intros H; inversion H; subst; split; auto.
Qed.

(** ** C09 *)
Lemma fits_cases_push E T w b i l w' b' : BI w b -> b_bulk b = false -> bstep E T (BPush i) (w, b) = (Ok l, (w', b')) ->
  b_rs b' = b_rs b ++ [i] /\ b_bulk b' = b_bulk b.
Proof.
  intros B NB Hs. cbn [bstep] in Hs. destruct (none_inv _ _ _ _ Hs ltac:(discriminate)) as [u [Hu [Nu Du]]].
  destruct (push_spec _ _ _ _ _ _ _ B Hu Nu) as [r [Hr Sp]]. destruct Du as [[_ ->]|[e [X _]]]; [|discriminate].
  destruct (push_refused _ _ _ _ _).
  - destruct Sp; discriminate.
  - destruct Sp as [w1 [b1 [E1 [_ [C [_ [_ [[[e [X _]]|[_ [_ D]]] _]]]]]]]]; [discriminate|].
    inversion E1; subst. split; [|apply C]. destruct D as [[_ [D _]]|[D _]]; auto. congruence.
Qed.
Lemma push_fail_same E T w b o res w' b' : BI w b -> b_bulk b = false -> push_list o <> None -> fair T o (w, b) (w', b') ->
  bstep E T o (w, b) = (res, (w', b')) -> res <> UB -> (forall l, res <> Ok l) -> b' = b /\ w' = w.
Proof.
  intros B NB PA Fa Hs N NO. destruct o; try (exfalso; apply PA; reflexivity); cbn [bstep] in Hs;
  destruct (none_inv _ _ _ _ Hs N) as [u [Hu [Nu Du]]]; (destruct Du as [[X _]|[e [_ Ue]]]; [exfalso; eapply NO; eauto|]); subst u.
  - destruct (push_spec _ _ _ _ _ _ _ B Hu Nu) as [r [Hr Sp]]. destruct (push_refused _ _ _ _ _).
    + destruct Sp as [_ E1]. inversion E1; auto.
    + destruct Sp as [w1 [b1 [E1 [_ [C [_ [_ [[[e' [X [Y [Z _]]]]|[X _]] _]]]]]]]]; [|discriminate]. congruence.
  - destruct Fa as [Nd Mx]. destruct (push_vector_spec _ _ _ _ _ _ _ B Hu Nu) as [[E1 _]|[_ [_ [_ X]]]].
    + inversion E1; auto.
    + destruct (X Nd ltac:(congruence)) as [Y _]. discriminate.
Qed.
Lemma pushv_appends E T w b is l w' b' : BI w b -> b_bulk b = false -> fair T (BPushV is) (w, b) (w', b') ->
  bstep E T (BPushV is) (w, b) = (Ok l, (w', b')) -> b_rs b' = b_rs b ++ is /\ b_bulk b' = b_bulk b.
Proof.
  intros B NB [Nd _] Hs. cbn [bstep] in Hs. destruct (none_inv _ _ _ _ Hs ltac:(discriminate)) as [u [Hu [Nu Du]]].
  destruct Du as [[_ ->]|[e [X _]]]; [|discriminate].
  destruct (push_vector_spec _ _ _ _ _ _ _ B Hu Nu) as [[E1 [[X _]|[[X _]|[X _]]]]|[_ [_ [_ X]]]]; try discriminate.
  destruct (X Nd ltac:(congruence)) as [_ [w1 [b1 [E1 [_ [C [_ [_ [D _]]]]]]]]]. inversion E1; subst. split; [now apply D|apply C].
Qed.

Lemma C09_fifo_lemma E T w0 keep b0 tr w b : env_ok E -> reachable E w0 -> fresh_buf false keep b0 ->
  bhist E T (w0, b0) tr (w, b) -> Forall (fun p => whole_front (fst p)) tr ->
  pushed tr = popped tr ++ b_rs b.
Proof.
  intros EO R F H W. cut (b_bulk b = false /\ pushed tr = popped tr ++ b_rs b); [tauto|].
  assert (G : forall s, bhist E T (w0, b0) tr s -> Forall (fun p => whole_front (fst p)) tr ->
     b_bulk (snd s) = false /\ pushed tr = popped tr ++ b_rs (snd s)); [|apply (G _ H W)].
  clear H W w b. intros s H. induction H as [|tr s o res s' H IH Hs N Fa]; intros W.
  - simpl. unfold fresh_buf, buf_new in F. simpl in F. inversion F; subst. auto.
  - apply Forall_app in W as [W1 W2]. destruct (IH W1) as [NB IHp]. inversion W2 as [|? ? Wo _]; subst. clear W1 W2 IH. cbn [fst] in Wo.
    destruct s as [w b], s' as [w' b']. cbn [snd] in *. destruct (bhist_BI _ _ _ _ _ _ _ _ _ EO R F H) as [B _].
    unfold pushed, popped in *. rewrite !flat_map_app. cbn [flat_map]. rewrite !app_nil_r, IHp.
    destruct o; try (exfalso; exact Wo).
    + destruct (C08_capacity_lemma _ _ _ _ _ _ _ _ Hs) as [_ [[x [_ [_ [_ ->]]]]|[_ [_ ->]]]]; rewrite !app_nil_r; auto.
    + cbn [bstep] in Hs. unfold none, buf_keep_packaging, bbind, bget, bmod, bthrow in Hs. cbn [fst snd] in Hs. rewrite NB in Hs.
      cbn in Hs. inversion Hs; subst. rewrite !app_nil_r. auto.
    + destruct res as [l|e|]; [| |congruence].
      * destruct (fits_cases_push _ _ _ _ _ _ _ _ B NB Hs) as [-> ->]. rewrite !app_nil_r, app_assoc. auto.
      * destruct (push_fail_same E T w b (BPush i) (Throw e) w' b') as [-> _]; auto; try discriminate. rewrite !app_nil_r. auto.
    + destruct res as [l|e|]; [| |congruence].
      * destruct (pushv_appends _ _ _ _ _ _ _ _ B NB Fa Hs) as [-> ->]. rewrite !app_nil_r, app_assoc. auto.
      * destruct (push_fail_same E T w b (BPushV is) (Throw e) w' b') as [-> _]; auto; try discriminate. rewrite !app_nil_r. auto.
    + cbn [bstep] in Hs. destruct (one_inv _ _ _ _ Hs N) as [u [Hu [Nu Du]]].
      destruct (pop_spec _ _ _ _ B Hu Nu) as [[_ [-> E1]]|[i [b1 [r [R1 [-> [E1 [_ [C _]]]]]]]]]; inversion E1; subst.
      * destruct Du as [x [[_ X]|[e [-> _]]]]; [discriminate|]. rewrite !app_nil_r. auto.
      * destruct Du as [x [[-> X]|[e [_ X]]]]; [|discriminate]. inversion X; subst. rewrite R1, !app_nil_r, <- app_assoc. simpl. split; auto.
        destruct C as [_ [-> _]]. auto.
    + cbn [bstep] in Hs. destruct (pop_n_spec _ _ _ _ _ B Hs N) as [[_ [-> E1]]|[_ [outs [b1 [-> [E1 [R1 [_ [_ [C _]]]]]]]]]]; inversion E1; subst.
      * rewrite !app_nil_r. auto.
      * rewrite R1, !app_nil_r, <- app_assoc. split; auto. destruct C as [_ [-> _]]. auto.
    + cbn [bstep] in Hs. unfold one, buf_peek, bbind, bget, bret, bthrow in Hs. cbn [fst snd] in Hs.
      destruct (b_rs b) eqn:X; inversion Hs; subst; rewrite !app_nil_r, ?X, ?app_nil_r; auto.
    + cbn [bstep] in Hs. unfold none, buf_decay, bbind, bget, bret, call in Hs. cbn [fst snd] in Hs.
      destruct (decay_all E (b_rs b) t w) as [[u|e|] w1]; inversion Hs; subst; rewrite !app_nil_r; auto.
    + cbn [bstep] in Hs. unfold none, bbind, bret, call in Hs. cbn [fst snd] in Hs.
      destruct (step E o w) as [[u|e|] w1]; inversion Hs; subst; rewrite !app_nil_r; auto.
Qed.

(** Each pop, in any state. *)
Lemma C09_pop_lemma E T w b res w' b' : in_use E T w b -> bstep E T BPop (w, b) = (res, (w', b')) -> res <> UB ->
  w' = w /\ ((b_rs b = [] /\ res = Throw ValueError /\ b' = b) \/ exists i, res = Ok [i] /\ b_rs b = i :: b_rs b').
Proof.
  intros H Hs N. destruct (in_use_BI _ _ _ _ H) as [EO [R B]]. cbn [bstep] in Hs. destruct (one_inv _ _ _ _ Hs N) as [u [Hu [Nu Du]]].
  destruct (pop_spec _ _ _ _ B Hu Nu) as [[R0 [-> E1]]|[i [b1 [r [R1 [-> [E1 _]]]]]]]; inversion E1; subst; split; auto.
  - left. destruct Du as [x [[_ X]|[e [-> X]]]]; [discriminate|]. inversion X; subst. auto.
  - right. destruct Du as [x [[-> X]|[e [_ X]]]]; [|discriminate]. inversion X; subst. eauto.
Qed.
Lemma C09_pop_back_lemma E T w b res w' b' : in_use E T w b -> bstep E T BPopBack (w, b) = (res, (w', b')) -> res <> UB ->
  w' = w /\ ((b_rs b = [] /\ res = Throw ValueError /\ b' = b) \/ exists i, res = Ok [i] /\ b_rs b = b_rs b' ++ [i]).
Proof.
  intros H Hs N. destruct (in_use_BI _ _ _ _ H) as [EO [R B]]. cbn [bstep] in Hs. destruct (one_inv _ _ _ _ Hs N) as [u [Hu [Nu Du]]].
  destruct (pop_back_spec _ _ _ _ B Hu Nu) as [[R0 [-> E1]]|[i [b1 [r [R1 [-> [E1 _]]]]]]]; inversion E1; subst; split; auto.
  - left. destruct Du as [x [[_ X]|[e [-> X]]]]; [discriminate|]. inversion X; subst. auto.
  - right. destruct Du as [x [[-> X]|[e [_ X]]]]; [|discriminate]. inversion X; subst. eauto.
Qed.
Lemma C09_pop_n_lemma E T w b n res w' b' : in_use E T w b -> bstep E T (BPopN n) (w, b) = (res, (w', b')) -> res <> UB ->
  w' = w /\ (((n < 0 \/ count b < n)%Z /\ res = Throw ValueError /\ b' = b) \/
             exists outs, res = Ok outs /\ b_rs b = outs ++ b_rs b' /\ Z.of_nat (length outs) = n).
Proof.
  intros H Hs N. destruct (in_use_BI _ _ _ _ H) as [EO [R B]]. cbn [bstep] in Hs.
  destruct (pop_n_spec _ _ _ _ _ B Hs N) as [[C [-> E1]]|[_ [outs [b1 [-> [E1 [R1 [L _]]]]]]]]; inversion E1; subst; split; auto.
  right. eauto.
Qed.
Lemma taken_takes E w w' rs q outs rs' : taken w w' rs q outs rs' E -> q <= sumv (vw w) rs -> takes w w' rs q outs rs'.
Proof.
  intros [pre [P [[R [O [W D]]]|[i [rest [r [l [R [R' [O [Hr [L0 [L1 [S1 Hx]]]]]]]]]]]]]] Hq; exists pre.
  - split; [intros; rewrite sum_vw; eauto|]. left. split; auto. split; auto. split; auto. rewrite sum_vw.
    destruct D as [D|[D|[D1 D2]]]; auto. subst. rewrite app_nil_r in Hq. lra.
  - split; [intros; rewrite sum_vw; eauto|]. right. exists i, rest, r, l. split; auto. split; auto. split; auto. split; auto.
    split; auto. split; [now rewrite sum_vw|].
    destruct (C01_extract_lemma _ _ _ _ _ _ Hx ltac:(discriminate)) as [r0 [Hr0 [[_ [X _]]|[_ [X _]]]]]; [discriminate|]. congruence.
Qed.
Lemma C09_pop_vector_lemma E T w b q res w' b' : in_use E T w b -> bstep E T (BPopVector q) (w, b) = (res, (w', b')) -> res <> UB ->
  (quantity b < q /\ res = Throw ValueError /\ w' = w /\ b' = b) \/
  (q <= quantity b /\ exists outs, res = Ok outs /\ takes w w' (b_rs b) q outs (b_rs b')).
Proof.
  intros H Hs N. destruct (in_use_BI _ _ _ _ H) as [EO [R B]]. cbn [bstep] in Hs.
  destruct (pop_vector_spec _ _ _ _ _ _ B Hs N) as [[C [-> E1]]|[Hq [outs [w1 [b1 [-> [E1 [Tk _]]]]]]]]; inversion E1; subst; [left; auto|].
  right. split; auto. exists outs. split; auto. eapply taken_takes; eauto. rewrite <- (bi_qty _ _ B). auto.
Qed.

(** ** C10 *)
Lemma C10_pop_vector_lemma E T w b q res w' b' : in_use E T w b -> 0 < q -> bstep E T (BPopVector q) (w, b) = (res, (w', b')) -> res <> UB ->
  (quantity b < q /\ res = Throw ValueError /\ w' = w /\ b' = b) \/
  (q <= quantity b /\ exists outs, res = Ok outs /\ NoDup outs /\ sum_qty w' outs == q /\ quantity b' == quantity b - q /\
     (forall i, In i outs -> ~ In i (b_rs b')) /\ total_qty w' == total_qty w).
Proof.
  intros H Q0 Hs N. destruct (in_use_BI _ _ _ _ H) as [EO [R B]]. cbn [bstep] in Hs.
  destruct (pop_vector_spec _ _ _ _ _ _ B Hs N) as [[C [-> E1]]|[Hq [outs [w1 [b1 [-> [E1 [Tk [B1 [C1 Q1]]]]]]]]]]; inversion E1; subst; [left; auto|].
  right. split; auto. exists outs. split; auto.
  destruct (taken_sum _ _ _ _ _ _ _ Tk (bi_nodup _ _ B) (bi_valid _ _ B) Q0) as [S1 [S2 [_ [_ S5]]]].
  { rewrite <- (bi_qty _ _ B). exact Hq. }
  split; auto. rewrite sum_vw. split; auto. unfold quantity. split; [lra|]. split; auto. eapply moves_total. eapply taken_moves; eauto.
Qed.
Lemma C10_pop_lemma E T w b q res w' b' : in_use E T w b -> 0 < q -> bstep E T (BPopQty q) (w, b) = (res, (w', b')) -> res <> UB ->
  (quantity b < q /\ res = Throw ValueError /\ w' = w /\ b' = b) \/
  (q <= quantity b /\ quantity b' == quantity b - q /\ total_qty w' == total_qty w /\
   (forall outs, res = Ok outs -> exists x, outs = [x] /\ sum_qty w' [x] == q /\ ~ In x (b_rs b') /\ exists r, nth_error (w_res w') x = Some r) /\
   (mixable w (b_rs b) -> exists x, res = Ok [x])).
Proof.
  intros H Q0 Hs N. destruct (in_use_BI _ _ _ _ H) as [EO [R B]]. cbn [bstep] in Hs. destruct (one_inv _ _ _ _ Hs N) as [u [Hu [Nu Du]]].
  destruct (pop_qty_spec _ _ _ _ _ _ B Hu Nu) as [[C [-> E1]]|[[_ [X _]]|[_ [Hq [outs [w1 [w2 [b1 [E1 [Tk [B1 [C1 [Q1 [Mv [Ok1 Mx]]]]]]]]]]]]]]].
  - inversion E1; subst. left. destruct Du as [x [[_ X]|[e [-> X]]]]; [discriminate|]. inversion X; subst. auto.
  - lra.
  - inversion E1; subst. right. split; auto. split; auto. split; [eapply moves_total; eauto|]. split.
    + intros outs2 ->. destruct Du as [x [[X ->]|[e [X _]]]]; [|discriminate]. inversion X; subst. exists x. split; auto.
      destruct (Ok1 _ eq_refl) as [_ [A1 [A2 A3]]]. split; [rewrite sum_vw, sumv_cons, sumv_nil; lra|]. split; auto.
      destruct (nth_error (w_res w2) x) eqn:Y; eauto. apply nth_error_None in Y. lia.
    + intros M. apply mixable_mixv in M. destruct (Mx EO R M) as [x ->]. destruct Du as [y [[-> X]|[e [_ X]]]]; [|discriminate]. eauto.
Qed.
Lemma C10_pop_eps_lemma E T w b q e res w' b' : in_use E T w b -> 0 < q -> 0 <= e ->
  bstep E T (BPopQtyEps q e) (w, b) = (res, (w', b')) -> res <> UB ->
  (quantity b + e < q /\ res = Throw ValueError /\ w' = w /\ b' = b) \/
  (q <= quantity b + e /\ total_qty w' == total_qty w /\
   quantity b' == quantity b - (if Qltb q (quantity b) then q else quantity b) /\
   (forall outs, res = Ok outs -> exists x, outs = [x] /\ sum_qty w' [x] == (if Qltb q (quantity b) then q else quantity b)) /\
   (mixable w (b_rs b) -> b_rs b <> [] -> exists x, res = Ok [x])).
Proof.
  intros H Q0 He Hs N. destruct (in_use_BI _ _ _ _ H) as [EO [R B]].
  pose proof Hs as Hs0. cbn [bstep] in Hs. destruct (one_inv _ _ _ _ Hs N) as [u [Hu [Nu Du]]]. unfold quantity.
  destruct (pop_qty_eps_spec _ _ _ _ _ _ _ B Hu Nu) as [[C [-> E1]]|[[C1 [C2 [w1 [b1 [E1 [B1 [Cf [Mv [R1 [_ [Ok1 Mx]]]]]]]]]]]|[C1 [C2 Hp]]]].
  - inversion E1; subst. left. destruct Du as [x [[_ X]|[e1 [-> X]]]]; [discriminate|]. inversion X; subst. auto.
  - inversion E1; subst. right. split; auto. split; [eapply moves_total; eauto|]. destruct (Qltb_spec q (b_qty b)); [lra|]. split.
    { rewrite (bi_qty _ _ B1), R1, sumv_nil. lra. }
    split.
    + intros outs2 ->. destruct Du as [x [[X ->]|[e1 [X _]]]]; [|discriminate]. inversion X; subst. exists x. split; auto.
      destruct (Ok1 _ eq_refl) as [_ [A1 A2]]. rewrite sum_vw, sumv_cons, sumv_nil. lra.
    + intros M NE. apply mixable_mixv in M. destruct (Mx EO R M NE) as [x ->]. destruct Du as [y [[-> X]|[e1 [_ X]]]]; [|discriminate]. eauto.
  - right. split; auto. assert (Hs2 : bstep E T (BPopQty q) (w, b) = (res, (w', b'))).
    { cbn [bstep]. unfold one, bbind in *. rewrite Hu in Hs. rewrite Hp. exact Hs. }
    destruct (C10_pop_lemma _ _ _ _ _ _ _ _ H Q0 Hs2 N) as [[X _]|[_ [A1 [A2 [A3 A4]]]]]; [unfold quantity in X; lra|].
    destruct (Qltb_spec q (b_qty b)); [|lra]. split; auto. split; [exact A1|]. split; [|auto].
    intros outs O. destruct (A3 _ O) as [x [X1 [X2 _]]]. eauto.
Qed.

(** ** C11 *)
Lemma C11_push_lemma E T w b i res w' b' : in_use E T w b -> bstep E T (BPush i) (w, b) = (res, (w', b')) -> res <> UB ->
  (b_bulk b = true -> T <> EResource /\ mixable w (b_rs b ++ [i])) ->
  exists r, nth_error (w_res w) i = Some r /\
  ((res = Ok [] /\ casts T r = true /\ fits (e_eps E) (r_qty r) b /\ ~ In i (b_rs b) /\
    quantity b' == quantity b + r_qty r /\ b_rs b' = (if b_bulk b then firstn 1 (b_rs b ++ [i]) else b_rs b ++ [i])) \/
   (w' = w /\ b' = b /\
    (res = Throw CastError /\ casts T r = false \/ res = Throw ValueError /\ ~ fits (e_eps E) (r_qty r) b \/
     res = Throw KeyError /\ In i (b_rs b)))).
Proof.
  intros H Hs N M. destruct (in_use_BI _ _ _ _ H) as [EO [R B]]. cbn [bstep] in Hs. destruct (none_inv _ _ _ _ Hs N) as [u [Hu [Nu Du]]].
  destruct (push_spec _ _ _ _ _ _ _ B Hu Nu) as [r [Hr Sp]]. exists r. split; auto.
  assert (TH : forall e, u = Throw e -> res = Throw e) by (intros e ->; destruct Du as [[_ X]|[e' [X Y]]]; congruence).
  unfold push_refused in Sp. destruct (casts T r) eqn:K; cbn [negb] in Sp.
  2:{ right. destruct Sp as [X E1]. inversion E1; subst w' b'. split; auto. }
  destruct (too_big (e_eps E) (r_qty r) b) eqn:TB.
  { right. destruct Sp as [X E1]. inversion E1; subst w' b'. split; auto. split; auto. right; left. split; auto. intros F. apply too_big_fits in F. congruence. }
  cbn [existsb] in Sp. destruct (present i b) eqn:P; cbn [orb] in Sp.
  { right. destruct Sp as [X E1]. inversion E1; subst w' b'. split; auto. split; auto. right; right. split; auto. apply present_spec in P. now apply (bi_pres _ _ B). }
  left. destruct Sp as [w1 [b1 [E1 [B1 [C [Mv [NI [D Mx]]]]]]]]. inversion E1; subst w1 b1.
  assert (u = Ok tt).
  { destruct D as [[e [X [_ [Bk [_ _]]]]]|[X _]]; auto. destruct (M Bk) as [M1 M2]. apply mixable_mixv in M2. auto. }
  subst u. destruct Du as [[-> _]|[e [_ X]]]; [|discriminate]. split; auto. split; auto. split; [now apply too_big_fits|]. split; auto.
  destruct D as [[e [X _]]|[_ [Q1 D]]]; [discriminate|]. split; auto.
  destruct D as [[D1 [D2 _]]|[D1 [_ [D2 [f [k [a [D3 _]]]]]]]].
  - destruct (b_bulk b) eqn:Bk; auto. destruct D1 as [D1|D1]; [discriminate|]. rewrite D1 in *. exact D2.
  - rewrite D1, D2, D3. reflexivity.
Qed.
Lemma C11_push_vector_lemma E T w b is res w' b' : in_use E T w b -> bstep E T (BPushV is) (w, b) = (res, (w', b')) -> res <> UB ->
  NoDup is -> (b_bulk b = true -> T <> EResource /\ mixable w (b_rs b ++ is)) ->
  let ok_cast := forall i, In i is -> exists r, nth_error (w_res w) i = Some r /\ casts T r = true in
  let ok_room := fits (e_eps E) (sum_qty w is) b in
  let ok_new := forall i, In i is -> ~ In i (b_rs b) in
  (res = Ok [] /\ ok_cast /\ ok_room /\ ok_new /\ quantity b' == quantity b + sum_qty w is /\
    b_rs b' = (if b_bulk b then firstn 1 (b_rs b ++ is) else b_rs b ++ is)) \/
  (w' = w /\ b' = b /\
    (res = Throw CastError /\ ~ ok_cast \/ res = Throw ValueError /\ ~ ok_room \/ res = Throw KeyError /\ ~ ok_new)).
Proof.
  intros H Hs N Nd M OC OR ON. destruct (in_use_BI _ _ _ _ H) as [EO [R B]]. cbn [bstep] in Hs. destruct (none_inv _ _ _ _ Hs N) as [u [Hu [Nu Du]]].
  assert (TH : forall e, u = Throw e -> res = Throw e) by (intros e ->; destruct Du as [[_ X]|[e' [X Y]]]; congruence).
  unfold OC, OR, ON. clear OC OR ON. rewrite sum_vw.
  destruct (push_vector_spec _ _ _ _ _ _ _ B Hu Nu) as [[E1 D]|[K1 [K2 [K3 D]]]].
  - right. inversion E1; subst. split; auto. split; auto. destruct D as [[-> [i [x [I1 [I2 I3]]]]]|[[-> D]|[-> [i [I1 I2]]]]].
    + left. split; auto. intros X. destruct (X _ I1) as [y [Y1 Y2]]. congruence.
    + right; left. auto.
    + right; right. split; auto. intros X. exact (X _ I1 I2).
  - left. destruct (D Nd) as [-> [w1 [b1 [E1 [B1 [C [Mv [Q1 [R1 R2]]]]]]]]].
    { intros Bk. destruct (M Bk) as [M1 M2]. apply mixable_mixv in M2. auto. }
    inversion E1; subst. destruct Du as [[-> _]|[e [_ X]]]; [|discriminate]. split; auto. split; auto. split; auto. split; auto. split; auto.
    destruct (b_bulk b) eqn:Bk; [now apply R2|now apply R1].
Qed.

(** ** C08: the capacity bound over histories *)
Lemma sumv_nonneg v l : (forall i, In i l -> 0 <= qv v i) -> 0 <= sumv v l.
Proof.
  induction l as [|i l IH]; intros H; [rewrite sumv_nil; lra|]. rewrite sumv_cons.
  specialize (IH ltac:(intros; apply H; simpl; auto)). specialize (H i ltac:(simpl; auto)). lra.
Qed.
Lemma taken_nonpos E w w' rs q outs rs' : taken w w' rs q outs rs' E -> q <= 0 -> outs = [] /\ w' = w.
Proof.
  intros [pre [P D]] Hq.
  assert (pre = []).
  { destruct pre as [|x pre]; auto. specialize (P [] (x :: pre) eq_refl ltac:(discriminate)). rewrite sumv_nil in P. lra. }
  subst. destruct D as [[_ [-> [-> _]]]|[i [rest [r [l [_ [_ [_ [_ [L0 [_ [S1 _]]]]]]]]]]]]; auto. rewrite sumv_nil in S1. lra.
Qed.
Lemma nonpush_le E T w b o res w' b' : in_use E T w b -> bstep E T o (w, b) = (res, (w', b')) -> res <> UB ->
  (forall i r, In i (b_rs b) -> nth_error (w_res w) i = Some r -> 0 <= r_qty r) ->
  push_list o = None -> (forall c, o <> BCapacity c) ->
  b_cap b' = b_cap b /\ b_qty b' <= b_qty b.
Proof.
  intros H Hs N Pos NP NC. destruct (in_use_BI _ _ _ _ H) as [EO [R B]].
  assert (Qp : forall i, In i (b_rs b) -> 0 <= qv (vw w) i).
  { intros i Hi. destruct (nth_error (w_res w) i) eqn:X; [rewrite (qv_nth _ _ _ X); eauto|].
    apply nth_error_None in X. apply (bi_valid _ _ B) in Hi. lia. }
  assert (Bp : 0 <= b_qty b) by (rewrite (bi_qty _ _ B); apply sumv_nonneg; auto).
  destruct o; try discriminate NP; cbn [bstep] in Hs.
  - exfalso. eapply NC; reflexivity.
  - unfold none, buf_keep_packaging, bbind, bget, bmod, bthrow, bret in Hs. cbn [fst snd] in Hs.
    destruct (b_bulk b && k); inversion Hs; subst; cbn; split; auto; lra.
  - destruct (one_inv _ _ _ _ Hs N) as [u [Hu [Nu Du]]].
    destruct (pop_spec _ _ _ _ B Hu Nu) as [[R0 [-> E1]]|[i [b1 [r [R1 [-> [E1 [_ [C [Hr Q1]]]]]]]]]]; inversion E1; subst.
    + split; [auto|lra].
    + split; [apply C|]. assert (0 <= r_qty r) by (eapply Pos; eauto; rewrite R1; simpl; auto). lra.
  - destruct (one_inv _ _ _ _ Hs N) as [u [Hu [Nu Du]]].
    destruct (pop_back_spec _ _ _ _ B Hu Nu) as [[R0 [-> E1]]|[i [b1 [r [R1 [-> [E1 [_ [C [Hr Q1]]]]]]]]]]; inversion E1; subst.
    + split; [auto|lra].
    + split; [apply C|]. assert (0 <= r_qty r) by (eapply Pos; eauto; rewrite R1, in_app_iff; simpl; auto). lra.
  - destruct (pop_n_spec _ _ _ _ _ B Hs N) as [[C [-> E1]]|[_ [outs [b1 [-> [E1 [R1 [L [_ [C Q1]]]]]]]]]]; inversion E1; subst.
    + split; [auto|lra].
    + split; [apply C|]. assert (0 <= sumv (vw w) outs) by (apply sumv_nonneg; intros; apply Qp; rewrite R1, in_app_iff; auto). lra.
  - destruct (pop_vector_spec _ _ _ _ _ _ B Hs N) as [[C [-> E1]]|[Hq [outs [w1 [b1 [-> [E1 [Tk [B1 [C1 Q1]]]]]]]]]]; inversion E1; subst.
    + split; [auto|lra].
    + split; [apply C1|]. destruct (Qlt_le_dec 0 q) as [Q0|Q0].
      * destruct (taken_sum _ _ _ _ _ _ _ Tk (bi_nodup _ _ B) (bi_valid _ _ B) Q0) as [S1 _]; [rewrite <- (bi_qty _ _ B); auto|]. lra.
      * destruct (taken_nonpos _ _ _ _ _ _ _ Tk Q0) as [-> ->]. rewrite sumv_nil in Q1. lra.
  - destruct (one_inv _ _ _ _ Hs N) as [u [Hu [Nu Du]]].
    destruct (pop_qty_spec _ _ _ _ _ _ B Hu Nu) as [[C [-> E1]]|[[_ [X [_ [b1 [E1 [_ [C [_ Q1]]]]]]]]|[Q0 [Hq [outs [w1 [w2 [b1 [E1 [Tk [B1 [C1 [Q1 _]]]]]]]]]]]]].
    + inversion E1; subst. split; [auto|lra].
    + inversion E1; subst. split; [apply C|lra].
    + inversion E1; subst. split; [apply C1|lra].
  - destruct (one_inv _ _ _ _ Hs N) as [u [Hu [Nu Du]]].
    destruct (pop_qty_eps_spec _ _ _ _ _ _ _ B Hu Nu) as [[C [-> E1]]|[[C1 [C2 [w1 [b1 [E1 [B1 [Cf [Mv [R1 _]]]]]]]]]|[C1 [C2 Hp]]]].
    + inversion E1; subst. split; [auto|lra].
    + inversion E1; subst. split; [apply Cf|]. rewrite (bi_qty _ _ B1), R1, sumv_nil. auto.
    + destruct (pop_qty_spec _ _ _ _ _ _ B Hp Nu) as [[C [-> E1]]|[[_ [X [_ [b1 [E1 [_ [C [_ Q1]]]]]]]]|[Q0 [Hq [outs [w1 [w2 [b1 [E1 [Tk [B1 [C3 [Q1 _]]]]]]]]]]]]].
      * inversion E1; subst. split; [auto|lra].
      * inversion E1; subst. split; [apply C|lra].
      * inversion E1; subst. split; [apply C3|lra].
  - unfold one, buf_peek, bbind, bget, bret, bthrow in Hs. cbn [fst snd] in Hs.
    destruct (b_rs b) eqn:X; inversion Hs; subst; split; auto; lra.
  - unfold none, buf_decay, bbind, bget, bret, call in Hs. cbn [fst snd] in Hs.
    destruct (decay_all E (b_rs b) t w) as [[u|e|] w1]; inversion Hs; subst; split; auto; lra.
  - unfold none, bbind, bret, call in Hs. cbn [fst snd] in Hs.
    destruct (step E o w) as [[u|e|] w1]; inversion Hs; subst; split; auto; lra.
Qed.

Lemma push_fail_buf E T w b o res w' b' : in_use E T w b -> push_list o <> None -> fair T o (w, b) (w', b') ->
  bstep E T o (w, b) = (res, (w', b')) -> res <> UB -> (forall l, res <> Ok l) -> b' = b.
Proof.
  intros H PA Fa Hs N NO. destruct (in_use_BI _ _ _ _ H) as [EO [R B]].
  destruct o; try (exfalso; apply PA; reflexivity); cbn [bstep] in Hs;
  destruct (none_inv _ _ _ _ Hs N) as [u [Hu [Nu Du]]]; (destruct Du as [[X _]|[e [_ Ue]]]; [exfalso; eapply NO; eauto|]); subst u.
  - destruct (push_spec _ _ _ _ _ _ _ B Hu Nu) as [r [Hr Sp]]. destruct (push_refused _ _ _ _ _).
    + destruct Sp as [_ E1]. inversion E1; auto.
    + destruct Sp as [w1 [b1 [E1 [_ [C [_ [_ [[[e' [X [Y [Z _]]]]|[X _]] _]]]]]]]]; [|discriminate]. inversion E1; subst. auto.
  - destruct Fa as [Nd Mx]. destruct (push_vector_spec _ _ _ _ _ _ _ B Hu Nu) as [[E1 _]|[_ [_ [_ X]]]].
    + inversion E1; auto.
    + destruct (X Nd) as [Y _]; [|discriminate]. intros K. destruct (Mx K). split; auto. split; auto. split; auto. now apply mixable_mixv.
Qed.

Lemma sizable_hist E T s0 tr s : bhist_sizable E T s0 tr s -> bhist E T s0 tr s.
Proof. induction 1; econstructor; eauto. Qed.
Lemma C08_capacity_history_lemma E T w0 bulk keep b0 tr w b c : env_ok E -> reachable E w0 -> fresh_buf bulk keep b0 -> 0 <= e_eps E ->
  bhist_sizable E T (w0, b0) tr (w, b) -> b_cap b = Some c -> quantity b <= c + e_eps E.
Proof.
  intros EO R F He H. 
  assert (G : forall s, bhist_sizable E T (w0, b0) tr s -> forall c, b_cap (snd s) = Some c -> b_qty (snd s) <= c + e_eps E);
    [|apply (G _ H)].
  clear H w b c. intros s H. induction H as [|tr s o res s' H IH Hs N Fa [Pos Sz]]; intros c Hc.
  - unfold fresh_buf, buf_new in F. destruct (bulk && keep); inversion F; subst. discriminate.
  - destruct s as [w b], s' as [w' b']. cbn [fst snd] in *.
    assert (U : in_use E T w b) by (exists w0, bulk, keep, b0, tr; split; auto; split; auto; split; auto; now apply sizable_hist).
    destruct (push_list o) as [is|] eqn:P.
    + destruct res as [l|e|]; [| |congruence].
      * destruct (C08_push_lemma _ _ _ _ _ _ _ _ _ U P Hs Fa) as [Q1 [C1 Fi]]. unfold quantity in Q1. rewrite Q1.
        rewrite C1 in Hc. specialize (Sz _ eq_refl). unfold fits, space in Fi. rewrite Hc in Fi. revert Fi. unfold qmax. qcase; intros; lra.
      * assert (X : b' = b) by (eapply push_fail_buf; eauto; try discriminate; rewrite P; discriminate). subst b'. auto.
    + destruct o as [c0| | | | | | | | | | | | ];
        try (destruct (nonpush_le _ _ _ _ _ _ _ _ U Hs N Pos P ltac:(discriminate)) as [C1 Q1]; rewrite C1 in Hc; specialize (IH _ Hc); lra).
      destruct (C08_capacity_lemma _ _ _ _ _ _ _ _ Hs) as [_ [[x [_ [_ [_ ->]]]]|[K [_ ->]]]]; auto.
      cbn in Hc. subst c0. destruct K. cbn. exact H1.
Qed.
