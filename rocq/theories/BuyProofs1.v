(** Frames of the policy's functions. *)
From Verif Require Import Base CompModel PackageModel ResourceModel ResourceSpec BufModel BufSpec
  GreedyModel ExchangeModel TrackerModel TrackerSpec BuyModel BuySpec.
Local Open Scope Q_scope.

Lemma ybind_inv {A B} (m : YM A) (f : A -> YM B) s b s' : ybind m f s = (b, s') ->
  (exists a s1, m s = (Ok a, s1) /\ f a s1 = (b, s')) \/
  (exists e, m s = (Throw e, s') /\ b = Throw e) \/ (m s = (UB, s') /\ b = UB).
Proof.
  unfold ybind. destruct (m s) as [[a|e|] s1] eqn:E; intros H.
  - left. eauto.
  - injection H as <- <-. right. left. eauto.
  - injection H as <- <-. right. right. auto.
Qed.
Lemma ybind_ok {A B} (m : YM A) (f : A -> YM B) s b s' : ybind m f s = (Ok b, s') ->
  exists a s1, m s = (Ok a, s1) /\ f a s1 = (Ok b, s').
Proof. intros H. apply ybind_inv in H as [H|[[e [_ H]]|[_ H]]]; [exact H|discriminate|discriminate]. Qed.

(** Everything but the cycle state. *)
Definition params (p : pol) :=
  (y_id p, y_mgr p, y_buf p, y_trk p, (y_fill p, y_reqat p, y_quant p, y_thr p, y_cum p), y_commods p).
Definition dvals (p : pol) :=
  (option_map i_vals (y_ad p), option_map i_vals (y_dd p), option_map (fun d => (d_vals d, d_max d)) (y_sd p)).
Definition rows_only (s s' : sys) : Prop := s' = s_set_rows (s_rows s') s.

Ltac ysimp := cbn [fst snd s_world s_bufs s_trks s_mkt s_rows s_set_rows s_set_world s_set_bufs s_set_trks s_set_mkt
  y_id y_mgr y_buf y_trk y_fill y_reqat y_quant y_thr y_cum y_cycle y_nae y_nde y_ad y_dd y_sd y_commods y_rc
  y_set_mgr y_set_buf y_set_trk y_set_fill y_set_reqat y_set_quant y_set_thr y_set_cum y_set_cycle y_set_nae y_set_nde
  y_set_ad y_set_dd y_set_sd y_set_commods y_set_rc params dvals option_map i_vals i_pos d_vals d_pos d_max] in *.
Ltac yinv H := injection H as <- <-.

Lemma rows_only_refl s : rows_only s s.
Proof. destruct s; reflexivity. Qed.
Lemma rows_only_trans s1 s2 s3 : rows_only s1 s2 -> rows_only s2 s3 -> rows_only s1 s3.
Proof. unfold rows_only. intros -> ->. reflexivity. Qed.

Lemma sample_active_inv s p r s' p' : y_sample_active (s, p) = (r, (s', p')) ->
  (exists d, y_ad p = Some d /\ r = Ok (i_vals d (i_pos d)) /\ s' = s /\ p' = y_set_ad (Some (mkI (i_vals d) (S (i_pos d)))) p) \/
  (y_ad p = None /\ r = UB /\ s' = s /\ p' = p).
Proof.
  unfold y_sample_active, ybind, ypol. cbn [snd]. destruct (y_ad p) as [d|]; cbn; intros H.
  - yinv H. left. eauto.
  - yinv H. auto.
Qed.
Lemma sample_dormant_inv s p r s' p' : y_sample_dormant (s, p) = (r, (s', p')) ->
  (exists d, y_dd p = Some d /\ r = Ok (i_vals d (i_pos d)) /\ s' = s /\ p' = y_set_dd (Some (mkI (i_vals d) (S (i_pos d)))) p) \/
  (y_dd p = None /\ r = UB /\ s' = s /\ p' = p).
Proof.
  unfold y_sample_dormant, ybind, ypol. cbn [snd]. destruct (y_dd p) as [d|]; cbn; intros H.
  - yinv H. left. eauto.
  - yinv H. auto.
Qed.
Lemma sample_size_inv s p r s' p' : y_sample_size (s, p) = (r, (s', p')) ->
  (exists d, y_sd p = Some d /\ r = Ok (d_vals d (d_pos d)) /\ s' = s /\ p' = y_set_sd (Some (mkD (d_vals d) (S (d_pos d)) (d_max d))) p) \/
  (y_sd p = None /\ r = UB /\ s' = s /\ p' = p).
Proof.
  unfold y_sample_size, ybind, ypol. cbn [snd]. destruct (y_sd p) as [d|]; cbn; intros H.
  - yinv H. left. eauto.
  - yinv H. auto.
Qed.

(** SetNextActiveTime in full, when the manager and the distribution are there. *)
Lemma next_active_eq s p a d : y_mgr p = Some a -> y_ad p = Some d ->
  y_next_active (s, p) =
  (Ok tt, (s_set_rows (s_rows s ++ [mkCyc a (w_time (s_world s)) (if y_uses_cum p then "CumulativeCap"%string else "Active"%string)
                                      (i_vals d (i_pos d))]) s,
           y_set_nae (i_vals d (i_pos d) + w_time (s_world s))%Z (y_set_ad (Some (mkI (i_vals d) (S (i_pos d)))) p))).
Proof.
  intros M A. unfold y_next_active, ybind, y_sample_active, ybind, ypol, ytime, ybind, ypol, y_record, ybind, ypol.
  cbn [snd fst]. rewrite A. cbn [yderef ypmod yret snd fst]. ysimp. rewrite M. cbn [yderef yret ysys fst snd ysmod]. ysimp.
  rewrite M. cbn [yderef yret]. unfold y_uses_cum. ysimp. reflexivity.
Qed.
(** SetNextDormantTime in full. *)
Lemma next_dormant_eq s p a d : y_mgr p = Some a -> y_dd p = Some d ->
  y_next_dormant (s, p) =
  if y_uses_cum p then
    (Ok tt, (s_set_rows (s_rows s ++ [mkCyc a (w_time (s_world s) + 1)%Z "Dormant" (i_vals d (i_pos d))]) s,
             y_set_nde (i_vals d (i_pos d) + (w_time (s_world s) + 1))%Z (y_set_dd (Some (mkI (i_vals d) (S (i_pos d)))) p)))
  else if (0 <=? y_nde p)%Z then
    (Ok tt, (s_set_rows (s_rows s ++ [mkCyc a (Z.max (y_nae p) 1) "Dormant" (i_vals d (i_pos d))]) s,
             y_set_nde (i_vals d (i_pos d) + Z.max (y_nae p) 1)%Z (y_set_dd (Some (mkI (i_vals d) (S (i_pos d)))) p)))
  else (Ok tt, (s, p)).
Proof.
  intros M A. unfold y_next_dormant, ybind, ypol. cbn [snd fst]. destruct (y_uses_cum p) eqn:U.
  - unfold y_sample_dormant, ybind, ypol, ytime, ybind, ypol, y_record, ybind, ypol.
    cbn [snd fst]. rewrite A. cbn [yderef ypmod yret snd fst]. ysimp. rewrite M. cbn [yderef yret ysys fst snd ysmod]. ysimp.
    rewrite M. cbn [yderef yret]. reflexivity.
  - destruct (0 <=? y_nde p)%Z; [|reflexivity].
    unfold y_sample_dormant, ybind, ypol, y_record, ybind, ypol.
    cbn [snd fst]. rewrite A. cbn [yderef ypmod yret snd fst]. ysimp. rewrite M. cbn [yderef yret ysys fst snd ysmod]. ysimp.
    reflexivity.
Qed.
(** A policy whose manager and distributions are there. *)
Definition ready (p : pol) : Prop :=
  (exists a, y_mgr p = Some a) /\ (exists d, y_ad p = Some d) /\ (exists d, y_dd p = Some d) /\ (exists d, y_sd p = Some d).
Definition frame (s : sys) (p : pol) (s' : sys) (p' : pol) : Prop :=
  params p' = params p /\ dvals p' = dvals p /\ y_cycle p' = y_cycle p /\ rows_only s s'.
Lemma frame_refl s p : frame s p s p.
Proof. unfold frame. auto using rows_only_refl. Qed.
Lemma frame_trans s1 p1 s2 p2 s3 p3 : frame s1 p1 s2 p2 -> frame s2 p2 s3 p3 -> frame s1 p1 s3 p3.
Proof.
  unfold frame. intros [A1 [A2 [A3 A4]]] [B1 [B2 [B3 B4]]]. repeat split; try congruence. now apply rows_only_trans with s2.
Qed.
Lemma params_mgr p p' : params p' = params p -> y_mgr p' = y_mgr p.
Proof. unfold params. intros H. now injection H. Qed.
Lemma dvals_ready p p' : params p' = params p -> dvals p' = dvals p -> ready p -> ready p'.
Proof.
  intros P D [[a M] [[x A] [[y B] [z C]]]]. unfold ready. unfold dvals in D. rewrite (params_mgr _ _ P), M.
  rewrite A, B, C in D. cbn in D.
  destruct (y_ad p'); [|discriminate]. destruct (y_dd p'); [|discriminate]. destruct (y_sd p'); [|discriminate].
  repeat split; eexists; reflexivity.
Qed.
Lemma next_active_frame s p r s' p' : ready p -> y_next_active (s, p) = (r, (s', p')) -> r = Ok tt /\ frame s p s' p'.
Proof.
  intros [[a M] [[d A] _]] H. rewrite (next_active_eq _ _ _ _ M A) in H. injection H as <- <- <-.
  split; [reflexivity|]. unfold frame, params, dvals, rows_only. ysimp. rewrite A. repeat split.
Qed.
Lemma next_dormant_frame s p r s' p' : ready p -> y_next_dormant (s, p) = (r, (s', p')) -> r = Ok tt /\ frame s p s' p'.
Proof.
  intros [[a M] [_ [[d A] _]]] H. rewrite (next_dormant_eq _ _ _ _ M A) in H.
  destruct (y_uses_cum p); [|destruct (0 <=? y_nde p)%Z]; injection H as <- <- <-; (split; [reflexivity|]);
    unfold frame, params, dvals, rows_only; ysimp; rewrite ?A; repeat split; destruct s; reflexivity.
Qed.
Lemma ytime_eq s p a : y_mgr p = Some a -> ytime (s, p) = (Ok (w_time (s_world s)), (s, p)).
Proof. intros M. unfold ytime, ybind, ypol. cbn [snd]. now rewrite M. Qed.
Lemma check_frame s p r s' p' : ready p -> y_check (s, p) = (r, (s', p')) -> r = Ok tt /\ frame s p s' p'.
Proof.
  intros R H. pose proof R as [[a M] _]. unfold y_check in H. unfold ybind at 1 in H. rewrite (ytime_eq _ _ _ M) in H.
  unfold ybind at 1, ypol in H. cbn [snd] in H.
  destruct (w_time (s_world s) =? y_nde p)%Z.
  - destruct (y_uses_cum p).
    + injection H as <- <- <-. split; [reflexivity|]. unfold frame, params, dvals. ysimp. repeat split. apply rows_only_refl.
    + unfold ybind in H. destruct (y_next_active (s, p)) as [r1 [s1 p1]] eqn:N1.
      apply next_active_frame in N1 as [-> F1]; [|exact R].
      destruct (y_next_dormant (s1, p1)) as [r2 [s2 p2]] eqn:N2.
      apply next_dormant_frame in N2 as [-> F2]; [|destruct F1 as [? [? _]]; now apply dvals_ready with p].
      injection H as <- <- <-. split; [reflexivity|]. now apply frame_trans with s1 p1.
  - injection H as <- <- <-. split; [reflexivity|]. apply frame_refl.
Qed.
