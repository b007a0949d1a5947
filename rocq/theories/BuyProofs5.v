(** Init, and the configuration of a policy in use. *)
From Verif Require Import Base CompModel CompSpec PackageModel ResourceModel ResourceSpec BufModel BufSpec
  BufProofs1 BufProofs2 BufProofs3 BufProofs4 BufProofs5 BufProofs6 BufProofs7
  GreedyModel ExchangeModel TrackerModel TrackerSpec BuyModel BuySpec BuyProofs1 BuyProofs2 BuyProofs3 BuyProofs4.
Local Open Scope Q_scope.
Local Opaque DBL_MAX.

Definition odef {A} (d : A) (o : option A) : A := match o with Some x => x | None => d end.
Definition bump (d : idist) : idist := mkI (i_vals d) (S (i_pos d)).

Lemma init_cycle_spec s p m s' p' : y_mgr p = Some m -> y_init_cycle (s, p) = (Ok tt, (s', p')) ->
  let A := odef (fixed_int 1) (y_ad p) in
  let D := odef (fixed_int (-1)) (y_dd p) in
  let S := odef (fixed_double 1) (y_sd p) in
  let now := w_time (s_world s) in
  let la := i_vals A (i_pos A) in
  let arow := mkCyc m now (if y_uses_cum p then "CumulativeCap"%string else "Active"%string) la in
  d_max S <= 1 /\ params p' = params p /\ y_cycle p' = y_cycle p /\ y_sd p' = Some S /\ y_ad p' = Some (bump A) /\
  y_nae p' = (la + now)%Z /\ rows_only s s' /\
  (if ((i_vals D (i_pos D) <? 0)%Z || y_uses_cum p)%bool then
     y_nde p' = (-1)%Z /\ y_dd p' = Some (bump D) /\ s_rows s' = s_rows s ++ [arow]
   else if (0 <=? y_nde p)%Z then
     let ld := i_vals D (Datatypes.S (i_pos D)) in
     let start := Z.max (la + now) 1 in
     y_nde p' = (ld + start)%Z /\ y_dd p' = Some (bump (bump D)) /\
     s_rows s' = s_rows s ++ [arow; mkCyc m start "Dormant" ld]
   else y_nde p' = y_nde p /\ y_dd p' = Some (bump D) /\ s_rows s' = s_rows s ++ [arow]).
Proof.
  intros M H A D S now la arow. unfold y_init_cycle in H. unfold ybind at 1, ypmod in H. cbn [fst snd] in H.
  set (p1 := y_default_dists p) in *.
  assert (params p1 = params p /\ y_cycle p1 = y_cycle p /\ y_nae p1 = y_nae p /\ y_nde p1 = y_nde p /\
          y_ad p1 = Some A /\ y_dd p1 = Some D /\ y_sd p1 = Some S) as [P1 [P2 [P3 [P4 [P5 [P6 P7]]]]]].
  { unfold p1, y_default_dists, A, D, S, odef. destruct p as [? ? ? ? ? ? ? ? ? ? ? ? ad dd sd ? ?]. ysimp.
    destruct ad, dd, sd; repeat split. }
  clearbody p1. unfold ybind at 1, ypol in H. cbn [snd] in H. unfold ybind at 1 in H. rewrite P7 in H. cbn [yderef] in H.
  unfold yret at 1 in H. destruct (Qltb_spec 1 (d_max S)) as [L|L]; [discriminate|].
  pose proof (params_inj _ _ P1) as [_ [PM [_ [_ [_ [_ [_ [_ [PC _]]]]]]]]].
  assert (y_uses_cum p1 = y_uses_cum p) as UC by (unfold y_uses_cum; now rewrite PC).
  unfold ybind at 1 in H. rewrite (next_active_eq s p1 m A) in H by congruence. rewrite UC in H.
  unfold ybind at 1, y_sample_dormant, ybind, ypol in H. ysimp. rewrite P6 in H. cbn [yderef] in H. unfold yret, ypmod in H. ysimp.
  fold la in H. fold now in H. fold arow in H.
  split; [lra|].
  destruct (i_vals D (i_pos D) <? 0)%Z eqn:X; cbn [orb].
  - injection H as <- <-. ysimp. rewrite <- P1. unfold rows_only. repeat split; assumption.
  - unfold y_uses_cum in H at 1. ysimp. fold (y_uses_cum p1) in H. rewrite UC in H. destruct (y_uses_cum p) eqn:U.
    + injection H as <- <-. ysimp. rewrite <- P1. unfold rows_only. repeat split; assumption.
    + erewrite next_dormant_eq in H; [|ysimp; rewrite PM; exact M|ysimp; reflexivity].
      match type of H with (if ?b then _ else _) = _ => assert (b = false) as Ub by (unfold y_uses_cum in *; ysimp; exact UC); rewrite Ub in H end.
      ysimp. rewrite P4 in H. destruct (0 <=? y_nde p)%Z.
      * injection H as <- <-. ysimp. rewrite <- P1. unfold rows_only. ysimp. rewrite <- app_assoc. repeat split; assumption.
      * injection H as <- <-. ysimp. rewrite <- P1. unfold rows_only. ysimp. repeat split; assumption.
Qed.

(** What Init stores before the cycle is set up. *)
Definition dists_of (a : init_args) : option idist * option idist * option ddist :=
  match a with
  | IThroughput _ ad dd sd => (ad, dd, sd)
  | ICumulative _ _ dd => (None, dd, None)
  | _ => (None, None, None)
  end.
Definition cap_ok (a : init_args) (p : pol) : Prop :=
  match l_cap (limits_of a) with Some c => y_cum p <= c /\ 0 < y_cum p | None => y_cum p = -1 end.
Definition stored (a : init_args) (mgr : Z) (i k : nat) (p : pol) : Prop :=
  y_mgr p = Some mgr /\ y_buf p = Some i /\ y_trk p = Some k /\
  ole (y_thr p) (l_throughput (limits_of a)) /\ ole (y_fill p) (l_target (limits_of a)) /\ ole (y_reqat p) (l_reorder (limits_of a)) /\
  y_quant p = odef (-1) (l_quantum (limits_of a)) /\ cap_ok a p.
Lemma stored_params a mgr i k p p' : params p' = params p -> stored a mgr i k p -> stored a mgr i k p'.
Proof.
  intros H. apply params_inj in H as [_ [A1 [A2 [A3 [A4 [A5 [A6 [A7 [A8 _]]]]]]]]]. unfold stored, cap_ok.
  now rewrite A1, A2, A3, A4, A5, A6, A7, A8.
Qed.
Lemma omin_l x c : omin x c <= x.
Proof. unfold omin. destruct c; [apply qmin_l|apply Qle_refl]. Qed.
Lemma ybuf_eq s p i : y_buf p = Some i -> ybuf (s, p) = match nth_error (s_bufs s) i with Some b => (Ok b, (s, p)) | None => (UB, (s, p)) end.
Proof. intros Y. unfold ybuf, ybind, ypol. cbn [snd]. rewrite Y. cbn. destruct (nth_error (s_bufs s) i); reflexivity. Qed.

Lemma inv_policy_spec s p i kind fill req s' p' : y_buf p = Some i ->
  y_inv_policy kind fill req (s, p) = (Ok tt, (s', p')) ->
  s' = s /\ exists x y q, x <= target_of kind fill req /\ y <= req /\ q = odef (y_quant p) (quantum_of kind fill) /\
  p' = y_set_fill x (y_set_quant q (y_set_reqat y p)).
Proof.
  intros Y H. unfold y_inv_policy in H. unfold ybind at 1 in H. unfold y_req_at, ybind in H. rewrite (ybuf_eq _ _ _ Y) in H.
  destruct (nth_error (s_bufs s) i) as [b|] eqn:B; [|discriminate]. unfold ypmod at 1 in H. cbn [fst snd] in H.
  unfold target_of, quantum_of. destruct (String.eqb (lower kind) "ss") eqn:SS.
  - unfold y_fill_to, ybind in H. rewrite (ybuf_eq _ _ i) in H by exact Y. rewrite B in H. injection H as <- <-.
    split; [reflexivity|]. exists (omin fill (b_cap b)), (omin req (b_cap b)), (y_quant p).
    split; [apply omin_l|]. split; [apply omin_l|]. split; reflexivity.
  - destruct (String.eqb (lower kind) "rq" || String.eqb (lower kind) "qr"); [|discriminate].
    unfold y_fill_to, ybind, ypmod in H. cbn [fst snd] in H. rewrite (ybuf_eq _ _ i) in H by exact Y. rewrite B in H. injection H as <- <-.
    split; [reflexivity|]. exists (omin (req + fill) (b_cap b)), (omin req (b_cap b)), fill.
    split; [apply omin_l|]. split; [apply omin_l|]. split; reflexivity.
Qed.

Ltac psimp := cbn [limits_of l_throughput l_target l_reorder l_quantum l_cap ole odef dists_of
  y_id y_mgr y_buf y_trk y_fill y_reqat y_quant y_thr y_cum y_cycle y_nae y_nde y_ad y_dd y_sd y_commods y_rc
  y_set_mgr y_set_buf y_set_trk y_set_fill y_set_reqat y_set_quant y_set_thr y_set_cum y_set_cycle y_set_nae y_set_nde
  y_set_ad y_set_dd y_set_sd y_set_commods y_set_rc].

Ltac psplit := repeat match goal with |- _ /\ _ => split end; try reflexivity; try exact Logic.I; try assumption; try apply Qle_refl; try apply omin_l.
Lemma bind_pmod {A} f (g : unit -> YM A) s p : ybind (ypmod f) g (s, p) = g tt (s, f p).
Proof. reflexivity. Qed.
Lemma bind_ret {A B} (x : A) (g : A -> YM B) sp : ybind (yret x) g sp = g x sp.
Proof. reflexivity. Qed.
Lemma bind_sys {B} (g : sys -> YM B) s p : ybind ysys g (s, p) = g s (s, p).
Proof. reflexivity. Qed.
Lemma bind_pol {B} (g : pol -> YM B) s p : ybind ypol g (s, p) = g p (s, p).
Proof. reflexivity. Qed.
Lemma bind_ok {A B} (m : YM A) (g : A -> YM B) sp x sp' : m sp = (Ok x, sp') -> ybind m g sp = g x sp'.
Proof. intros H. unfold ybind. now rewrite H. Qed.
Lemma set_tracker_ok s p i k s' p' : y_buf p = Some i -> y_set_tracker (Some k) (s, p) = (Ok tt, (s', p')) ->
  s' = s /\ p' = y_set_trk (Some k) p.
Proof.
  intros Y H. unfold y_set_tracker in H. rewrite bind_sys in H.
  destruct (nth_error (s_trks s) k) as [t|]; cbn [yderef] in H; [|discriminate]. rewrite bind_ret, bind_pol, Y in H. cbn [yderef] in H.
  rewrite bind_ret in H. destruct (trk_has i t) as [has| |]; try discriminate. unfold ylift in H. erewrite bind_ok in H by reflexivity.
  destruct has; cbn [negb] in H; [|discriminate]. injection H as <- <-. auto.
Qed.

(** The parameters Init stores. *)
Definition y_setup (a : init_args) : YM unit :=
  match a with
  | IPlain => yret tt
  | IThroughput thr ad dd sd => ybind (ypmod (y_set_thr thr)) (fun _ => ybind (ypmod (y_set_ad ad)) (fun _ => ybind (ypmod (y_set_dd dd)) (fun _ => ypmod (y_set_sd sd))))
  | IQuantize thr q => ybind (ypmod (y_set_thr thr)) (fun _ => ypmod (y_set_quant q))
  | IInvThr thr kind fill req => ybind (y_inv_policy kind fill req) (fun _ => ypmod (y_set_thr thr))
  | IInv kind fill req => y_inv_policy kind fill req
  | ICumulative thr cap dd => ybind (ypmod (y_set_thr thr)) (fun _ => ybind (y_cumulative cap) (fun _ => ypmod (y_set_dd dd)))
  end.
Lemma init_eq mgr i k a : y_init (Some mgr) (Some i) (Some k) a =
  ybind (ypmod (y_set_mgr (Some mgr))) (fun _ => ybind (ypmod (y_set_buf (Some i))) (fun _ => ybind (y_set_tracker (Some k)) (fun _ =>
  ybind (y_setup a) (fun _ => y_init_cycle)))).
Proof. reflexivity. Qed.

Definition blank (p : pol) : Prop :=
  y_quant p = -1 /\ y_cum p = -1 /\ y_cycle p = 0 /\ y_nde p = 0%Z /\ y_ad p = None /\ y_dd p = None /\ y_sd p = None.
Lemma setup_spec a mgr i k s p r s' p' : cap_positive a i s -> blank p -> y_mgr p = Some mgr -> y_buf p = Some i -> y_trk p = Some k ->
  y_setup a (s, p) = (Ok r, (s', p')) ->
  s' = s /\ stored a mgr i k p' /\ (y_ad p', y_dd p', y_sd p') = dists_of a /\ y_cycle p' = 0 /\ y_nde p' = 0%Z /\
    (forall b c, nth_error (s_bufs s) i = Some b -> l_cap (limits_of a) = Some c -> y_cum p' = omin c (b_cap b)).
Proof.
  intros CP [B1 [B2 [B3 [B4 [B5 [B6 B7]]]]]] M B T H.
  destruct a as [|thr ad dd sd|thr q|thr kind fill req|kind fill req|thr cap dd]; cbn [y_setup] in H.
  - injection H as <- <- <-. split; [reflexivity|]. unfold stored, cap_ok. psimp. rewrite B5, B6, B7. psplit. intros ? ? _ Xc; discriminate Xc.
  - rewrite !bind_pmod in H. injection H as <- <- <-. split; [reflexivity|]. unfold stored, cap_ok. psimp. psplit.
    intros ? ? _ Xc; discriminate Xc.
  - rewrite !bind_pmod in H. injection H as <- <- <-. split; [reflexivity|]. unfold stored, cap_ok. psimp. rewrite B5, B6, B7. psplit.
    intros ? ? _ Xc; discriminate Xc.
  - destruct (y_inv_policy kind fill req (s, p)) as [r1 [s1 p1]] eqn:I.
    destruct r1 as [[]| |]; [|unfold ybind in H; rewrite I in H; discriminate|unfold ybind in H; rewrite I in H; discriminate].
    rewrite (bind_ok _ _ _ _ _ I) in H. apply (inv_policy_spec s p i) in I as [-> [x [y [q [X [Y [Q ->]]]]]]]; [|assumption].
    injection H as <- <- <-. split; [reflexivity|]. unfold stored, cap_ok. psimp. rewrite B5, B6, B7. rewrite B1 in Q. psplit.
    intros ? ? _ Xc; discriminate Xc.
  - destruct r. apply (inv_policy_spec s p i) in H as [-> [x [y [q [X [Y [Q ->]]]]]]]; [|assumption].
    split; [reflexivity|]. unfold stored, cap_ok. psimp. rewrite B5, B6, B7. rewrite B1 in Q. psplit.
    intros ? ? _ Xc; discriminate Xc.
  - rewrite bind_pmod in H. unfold y_cumulative in H. unfold ybind at 1 2 in H. rewrite (ybuf_eq _ _ i) in H by assumption.
    destruct (nth_error (s_bufs s) i) as [b|] eqn:N; [|discriminate]. injection H as <- <- <-. split; [reflexivity|].
    destruct (CP cap b eq_refl N) as [C1 C2].
    assert (0 < omin cap (b_cap b)).
    { unfold omin. destruct (b_cap b); [|assumption]. unfold qmin. match goal with |- 0 < (if ?c then _ else _) => destruct c end; assumption. }
    unfold stored, cap_ok. psimp. rewrite B5, B7. psplit.
    intros b' c Hb Hc. injection Hc as <-. injection Hb as <-. reflexivity.
Qed.
Lemma init_spec a mgr i k id s s' p' : cap_positive a i s ->
  y_init (Some mgr) (Some i) (Some k) a (s, pol_new id) = (Ok tt, (s', p')) ->
  exists p, stored a mgr i k p /\ (y_ad p, y_dd p, y_sd p) = dists_of a /\ y_cycle p = 0 /\ y_nde p = 0%Z /\
    (forall b c, nth_error (s_bufs s) i = Some b -> l_cap (limits_of a) = Some c -> y_cum p = omin c (b_cap b)) /\
    y_init_cycle (s, p) = (Ok tt, (s', p')).
Proof.
  intros CP H. rewrite init_eq, !bind_pmod in H.
  apply ybind_ok in H as [[] [[s1 p1] [T H]]]. apply set_tracker_ok with (i := i) in T as [-> ->]; [|reflexivity].
  apply ybind_ok in H as [r [[s2 p2] [S H]]].
  apply setup_spec with (mgr := mgr) (i := i) (k := k) in S; [|assumption|repeat split|reflexivity|reflexivity|reflexivity].
  destruct S as [-> [S1 [S2 [S3 [S4 S5]]]]]. exists p2. auto 10.
Qed.

(** The configuration of a policy in use. *)
Definition cfg (a : init_args) (mgr : Z) (i k : nat) (p : pol) (got : Q) : Prop :=
  stored a mgr i k p /\ ready p /\ (l_cap (limits_of a) <> None -> y_cycle p == got) /\
  (sizes_ok a -> forall d, y_sd p = Some d -> forall n, 0 <= d_vals d n <= 1).
Lemma sizes_dvals a p p' : dvals p' = dvals p ->
  (sizes_ok a -> forall d, y_sd p = Some d -> forall n, 0 <= d_vals d n <= 1) ->
  (sizes_ok a -> forall d, y_sd p' = Some d -> forall n, 0 <= d_vals d n <= 1).
Proof.
  intros D H S d Y n. unfold dvals in D. injection D as _ _ D. rewrite Y in D. destruct (y_sd p) as [d0|] eqn:Y0; [|discriminate].
  cbn in D. injection D as D _. rewrite D. eapply H; eauto.
Qed.
Lemma cfg_keep a mgr i k p got p' got' : cfg a mgr i k p got -> params p' = params p -> dvals p' = dvals p ->
  (l_cap (limits_of a) <> None -> y_cycle p' == got') -> cfg a mgr i k p' got'.
Proof.
  intros [S [R [C Z]]] P D C'. split; [now apply stored_params with p|]. split; [now apply dvals_ready with p|].
  split; [assumption|]. now apply sizes_dvals with p.
Qed.
Lemma init_cfg a mgr i k id s s' p : cap_positive a i s ->
  y_init (Some mgr) (Some i) (Some k) a (s, pol_new id) = (Ok tt, (s', p)) -> cfg a mgr i k p 0.
Proof.
  intros CP H. apply init_spec in H as [p0 [S [D [C [_ [_ I]]]]]]; [|assumption].
  apply init_cycle_spec with (m := mgr) in I; [|apply S]. cbv zeta in I.
  destruct I as [_ [P [C' [Sd [Ad [_ [_ Dd]]]]]]].
  split; [now apply stored_params with p0|]. split.
  - unfold ready. split; [exists mgr; rewrite (params_mgr _ _ P); apply S|]. split; [eauto|]. split; [|eauto].
    destruct (_ || _)%bool; [|destruct (0 <=? _)%Z]; destruct Dd as [_ [X _]]; eauto.
  - split; [intros _; rewrite C', C; reflexivity|]. intros SZ d Y n. rewrite Sd in Y. injection Y as <-.
    destruct a as [|thr ad dd [sd|]| | | |]; cbn [dists_of sizes_ok] in *; injection D as _ _ D; rewrite D; cbn; try lra. apply SZ.
Qed.
Lemma stored_cum a mgr i k p : stored a mgr i k p -> y_uses_cum p = match l_cap (limits_of a) with Some _ => true | None => false end.
Proof.
  intros [_ [_ [_ [_ [_ [_ [_ H]]]]]]]. unfold cap_ok in H. unfold y_uses_cum.
  destruct (l_cap (limits_of a)); [|rewrite H; reflexivity]. destruct (Qltb_spec 0 (y_cum p)); [reflexivity|lra].
Qed.
Lemma used_cfg E eps mgr i k a s p got : used E eps mgr i k a s p got -> cfg a mgr i k p got.
Proof.
  induction 1 as [id s s' p CP H|s p got r s' p' _ IH H N|s p got resps s' p' _ IH H [b [B [U BK]]] ND|s p got c q x _ IH|s p got c _ IH|s p got s' _ IH].
  - now apply init_cfg in H.
  - pose proof IH as [S [R [C Z]]]. apply requests_spec in H as [[K1 [K2 [K3 _]]] _]; try assumption.
    eapply cfg_keep; [exact IH|assumption|assumption|]. now rewrite K3.
  - pose proof IH as [S [R [C Z]]]. pose proof U as U'. apply in_use_BI in U' as [EO [RC I]].
    pose proof (accept_spec E i resps s p (Ok tt) s' p' b H ltac:(discriminate) R ltac:(apply S) B EO RC I ND) as A.
    destruct A as [A1 [A2 [_ [_ [_ [_ [_ [_ [_ [_ [_ A3]]]]]]]]]]].
    eapply cfg_keep; [exact IH|assumption|assumption|]. intros L. rewrite (stored_cum _ _ _ _ _ S) in A3.
    destruct (l_cap (limits_of a)); [|congruence]. specialize (A3 eq_refl (BK L) eq_refl). cbv zeta in A3.
    destruct A3 as [[_ [A3 [_ [_ A4]]]]|[_ [A3 [m [d [_ [_ [_ [_ A4]]]]]]]]].
    + rewrite A4, Nat.eqb_refl, A3, (C L). reflexivity.
    + rewrite A4, app_length. cbn [length]. destruct (Nat.eqb_spec (length (s_rows s) + 1) (length (s_rows s))); [lia|assumption].
  - destruct IH as [[S1 [S2 [S3 [S4 [S5 [S6 [S7 S8]]]]]]] [R [C Z]]]. split; [|split; [exact R|split; assumption]].
    unfold stored, y_set. ysimp. auto 10.
  - destruct IH as [[S1 [S2 [S3 [S4 [S5 [S6 [S7 S8]]]]]]] [R [C Z]]]. split; [|split; [exact R|split; assumption]].
    unfold stored, y_unset. ysimp. auto 10.
  - assumption.
Qed.
