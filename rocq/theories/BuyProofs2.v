(** The portfolios of the buy policy. *)
From Verif Require Import Base CompModel PackageModel ResourceModel ResourceSpec BufModel BufSpec
  GreedyModel ExchangeModel TrackerModel TrackerSpec BuyModel BuySpec BuyProofs1.
Local Open Scope Q_scope.

(** Only requests and portfolios were added, and resources created. *)
Definition grows (s s' : sys) : Prop :=
  s_bufs s' = s_bufs s /\ s_trks s' = s_trks s /\ s_rows s' = s_rows s /\ w_time (s_world s') = w_time (s_world s) /\
  (exists l, w_res (s_world s') = w_res (s_world s) ++ l) /\
  (exists l, m_rports (s_mkt s') = m_rports (s_mkt s) ++ l) /\
  (exists l, m_reqs (s_mkt s') = m_reqs (s_mkt s) ++ l).
Lemma grows_refl s : grows s s.
Proof. unfold grows. repeat split; exists []; now rewrite app_nil_r. Qed.
Lemma grows_trans s1 s2 s3 : grows s1 s2 -> grows s2 s3 -> grows s1 s3.
Proof.
  intros [A1 [A2 [A3 [A4 [[a A5] [[b A6] [c A7]]]]]]] [B1 [B2 [B3 [B4 [[a' B5] [[b' B6] [c' B7]]]]]]].
  unfold grows. rewrite B1, B2, B3, B4, B5, B6, B7, A1, A2, A3, A4, A5, A6, A7, <- !app_assoc.
  repeat split; eexists; reflexivity.
Qed.

Definition good_req (q : Q) (excl : bool) (trader port : nat) (r : request) : Prop :=
  rs_qty (rq_target r) = q /\ rq_excl r = excl /\ rq_trader r = trader /\ rq_port r = port.

Lemma upd_twice {A} (l : list A) : forall i x y, upd (upd l i x) i y = upd l i y.
Proof. induction l as [|z l IH]; intros [|i] x y; cbn; try reflexivity. now rewrite IH. Qed.

Lemma add_requests_spec port amt l : forall s p r s' p',
  y_add_requests port amt l (s, p) = (r, (s', p')) ->
  (port < length (m_rports (s_mkt s)))%nat ->
  (rp_trader (rp_at (s_mkt s) port) = None \/ rp_trader (rp_at (s_mkt s) port) = Some (y_id p)) ->
  let m := s_mkt s in let m' := s_mkt s' in
  let rs := seq (length (m_reqs m)) (length l) in
  r = Ok rs /\ p' = p /\ s_bufs s' = s_bufs s /\ s_trks s' = s_trks s /\ s_rows s' = s_rows s /\
  w_time (s_world s') = w_time (s_world s) /\ (exists x, w_res (s_world s') = w_res (s_world s) ++ x) /\
  exists news rp',
    m_reqs m' = m_reqs m ++ news /\ length news = length l /\
    map (fun r => (rq_commod r, rq_pref r)) news = map (fun c => (fst c, snd (snd c))) l /\
    Forall (good_req amt (y_excl p) (y_id p) port) news /\
    m_rports m' = upd (m_rports m) port rp' /\
    rp_reqs rp' = rp_reqs (rp_at m port) ++ rs /\
    rp_qty rp' == rp_qty (rp_at m port) + inject_Z (Z.of_nat (length l)) * amt /\
    rp_trader rp' = match l with [] => rp_trader (rp_at m port) | _ => Some (y_id p) end.
Proof.
  induction l as [|[commod [comp pref]] l IH]; intros s p r s' p' H Hp Ht; cbn [y_add_requests] in H.
  - injection H as <- <- <-. cbn [length seq]. repeat split; try reflexivity; [exists []; now rewrite app_nil_r|].
    exists [], (rp_at (s_mkt s) port). rewrite !app_nil_r. repeat split; try reflexivity.
    + constructor.
    + unfold rp_at. symmetry. apply upd_same. now apply nth_error_nth'.
    + cbn. ring.
  - unfold ybind at 1, ypol in H. cbn [snd] in H. unfold ybind at 1, ysys in H. cbn [fst] in H.
    unfold ybind at 1 in H. unfold mat_create_untracked, new_resource in H. cbn [fst snd] in H.
    unfold ybind at 1 in H. unfold add_request in H. cbn [fst snd s_mkt s_set_world] in H.
    assert (verify (rp_trader (rp_at (s_mkt s) port)) (y_id p) = Ok (Some (y_id p))) as V.
    { unfold verify. destruct Ht as [->| ->]; [reflexivity|]. now rewrite Nat.eqb_refl. }
    rewrite V in H. cbn [fst snd] in H. unfold ybind at 1 in H.
    match type of H with context [y_add_requests port amt l ?st] => set (st1 := st) in * end.
    destruct (y_add_requests port amt l st1) as [r1 [s1 p1]] eqn:R.
    subst st1. eapply IH in R.
    2:{ ysimp. cbn [m_rports set_rports set_reqs s_set_mkt]. rewrite upd_length. exact Hp. }
    2:{ right. cbn [s_mkt s_set_mkt]. unfold rp_at. cbn [m_rports set_rports set_reqs].
        rewrite (nth_error_nth _ _ _ (nth_upd_same _ _ _ Hp)). reflexivity. }
    cbn [s_mkt s_set_mkt m_reqs m_rports set_rports set_reqs s_bufs s_trks s_rows s_world s_set_world w_time set_next_obj set_next_state set_res w_res] in R.
    destruct R as [-> [-> [B1 [B2 [B3 [B4 [[x B5] [news [rp' [C1 [C2 [C3 [C4 [C5 [C6 [C7 C8]]]]]]]]]]]]]]]].
    injection H as <- <- <-. rewrite app_length in *. cbn [length] in *.
    replace (length (m_reqs (s_mkt s)) + 1)%nat with (S (length (m_reqs (s_mkt s)))) in * by lia.
    split; [reflexivity|]. repeat split; try assumption.
    { eexists. rewrite B5, <- app_assoc. reflexivity. }
    eexists (_ :: news), rp'. split; [rewrite C1, <- app_assoc; reflexivity|].
    split; [cbn; now rewrite C2|]. split; [cbn [map]; rewrite C3; reflexivity|].
    split; [constructor; [repeat split|exact C4]|].
    split. { rewrite C5. apply upd_twice. }
    unfold rp_at in C6, C7 |- *. cbn [m_rports set_rports set_reqs] in C6, C7.
    rewrite (nth_error_nth _ _ _ (nth_upd_same _ _ _ Hp)) in C6, C7. cbn [rp_reqs rp_qty] in C6, C7.
    split; [rewrite C6, <- app_assoc; reflexivity|].
    split. { rewrite C7. cbn [rs_qty]. rewrite (Nat2Z.inj_succ (length l)), <- Z.add_1_r, inject_Z_plus. change (inject_Z 1) with 1. ring. }
    rewrite C8. destruct l; [|reflexivity]. unfold rp_at. cbn [m_rports set_rports set_reqs s_mkt s_set_mkt].
    now rewrite (nth_error_nth _ _ _ (nth_upd_same _ _ _ Hp)).
Qed.

Lemma fold_mutual m avg rs : forall rp, let rp1 := fold_left (fun acc r =>
          let q := rs_qty (rq_target (req_at m r)) in
          mkRP (rp_trader acc) (rp_reqs acc) (nupd r (fun _ => q / avg) (rp_coeffs acc))
               (rp_cons acc) (rp_qty acc - q)) rs rp in
  rp_trader rp1 = rp_trader rp /\ rp_reqs rp1 = rp_reqs rp /\
  rp_qty rp1 == rp_qty rp - qsum (map (fun r => rs_qty (rq_target (req_at m r))) rs).
Proof.
  induction rs as [|r rs IH]; intros rp.
  - cbn. repeat split. ring.
  - cbn [fold_left]. match goal with |- context [fold_left _ rs ?x] => destruct (IH x) as [A [B C]] end.
    cbv zeta in *. rewrite A, B, C. cbn [rp_trader rp_reqs rp_qty map qsum]. repeat split. ring.
Qed.

Definition port_good (m : market) (x trader : nat) (cs : list (string * (nat * Q))) (q : Q) (excl : bool) : Prop :=
  (x < length (m_rports m))%nat /\ Forall (fun r => (r < length (m_reqs m))%nat) (rp_reqs (rp_at m x)) /\
  asks m x trader cs q excl.
Lemma port_good_grows s s' x t cs q e : grows s s' -> port_good (s_mkt s) x t cs q e -> port_good (s_mkt s') x t cs q e.
Proof.
  intros [_ [_ [_ [_ [_ [[l1 R] [l2 Q]]]]]]] [L [F [A1 [A2 [A3 A4]]]]].
  assert (rp_at (s_mkt s') x = rp_at (s_mkt s) x) as X. { unfold rp_at. rewrite R. now apply app_nth1. }
  assert (forall r, (r < length (m_reqs (s_mkt s)))%nat -> req_at (s_mkt s') r = req_at (s_mkt s) r) as Y.
  { intros r K. unfold req_at. rewrite Q. now apply app_nth1. }
  unfold port_good, asks. rewrite X. rewrite R, Q, !app_length. split; [lia|].
  split. { eapply Forall_impl; [|exact F]. cbn. lia. }
  split; [exact A1|]. split; [exact A2|]. split.
  - rewrite <- A3. apply map_ext_in. intros r Hr. rewrite Y; [reflexivity|]. exact (proj1 (Forall_forall _ _) F r Hr).
  - apply Forall_forall. intros r Hr. rewrite Y; [|exact (proj1 (Forall_forall _ _) F r Hr)].
    exact (proj1 (Forall_forall _ _) A4 r Hr).
Qed.

Lemma upd_app_last {A} (l : list A) x y : upd (l ++ [x]) (length l) y = l ++ [y].
Proof. induction l as [|z l IH]; cbn; [reflexivity|]. now rewrite IH. Qed.

Lemma seq_from n k : seq n k = map (fun i => (n + i)%nat) (seq 0 k).
Proof.
  revert n. induction k as [|k IH]; intros n; [reflexivity|]. cbn [seq map]. rewrite Nat.add_0_r. f_equal.
  rewrite (IH (S n)), (IH 1%nat), map_map. apply map_ext. intros i. lia.
Qed.
Lemma add_mutual_eq m p rs : rs <> [] -> add_mutual m p rs =
  if Qeqb (avg_qty m rs) 0 then (UB, m) else
      let rp := rp_at m p in
      let rp1 := fold_left (fun acc r =>
          let q := rs_qty (rq_target (req_at m r)) in
          mkRP (rp_trader acc) (rp_reqs acc) (nupd r (fun _ => q / avg_qty m rs) (rp_coeffs acc))
               (rp_cons acc) (rp_qty acc - q)) rs rp in
      (Ok tt, set_rports m (upd (m_rports m) p
         (mkRP (rp_trader rp1) (rp_reqs rp1) (rp_coeffs rp1) (rp_cons rp1) (rp_qty rp1 + avg_qty m rs)))).
Proof. destruct rs; [congruence|]. reflexivity. Qed.

Lemma portfolio_spec amt s p r s' p' : y_portfolio amt (s, p) = (r, (s', p')) ->
  p' = p /\ s_bufs s' = s_bufs s /\ s_trks s' = s_trks s /\ s_rows s' = s_rows s /\
  (r = UB \/ (r = Ok (length (m_rports (s_mkt s))) /\ grows s s' /\
     port_good (s_mkt s') (length (m_rports (s_mkt s))) (y_id p) (y_commods p) amt (y_excl p))).
Proof.
  unfold y_portfolio. intros H. unfold ybind at 1, ypol in H. cbn [snd] in H. unfold ybind at 1, ysys in H. cbn [fst] in H.
  set (m := s_mkt s) in *. set (x := length (m_rports m)) in *.
  unfold ybind at 1, ysmod in H. cbn [fst snd] in H.
  unfold ybind at 1 in H.
  match type of H with context [y_add_requests x amt _ ?st] => destruct (y_add_requests x amt (y_commods p) st) as [r1 [s1 p1]] eqn:R end.
  apply add_requests_spec in R.
  2:{ cbn [s_mkt s_set_mkt m_rports set_rports]. rewrite app_length. subst x m. cbn [length]. lia. }
  2:{ left. cbn [s_mkt s_set_mkt]. unfold rp_at. cbn [m_rports set_rports]. subst x m. now rewrite app_nth2, Nat.sub_diag by lia. }
  cbn [s_mkt s_set_mkt m_reqs m_rports set_rports s_bufs s_trks s_rows s_world] in R.
  destruct R as [-> [-> [B1 [B2 [B3 [B4 [[z B5] [news [rp' [C1 [C2 [C3 [C4 [C5 [C6 [C7 C8]]]]]]]]]]]]]]]].
  fold m in C1, C5, C6, C7.
  assert (rp_at (set_rports m (m_rports m ++ [rport0])) x = rport0) as P0.
  { unfold rp_at. cbn [m_rports set_rports]. subst x. now rewrite app_nth2, Nat.sub_diag by lia. }
  rewrite P0 in *. cbn [rp_reqs rp_qty rport0] in C6, C7. unfold x in C5. rewrite upd_app_last in C5.
  unfold ybind at 1 in H. cbn [fst snd] in H.
  destruct (y_commods p) as [|c0 cs] eqn:CS.
  { cbn [length seq] in H. unfold add_mutual in H. injection H as <- <- <-. cbn [s_bufs s_trks s_rows s_set_mkt]. auto 10. }
  rewrite <- CS in *. set (rs := seq (length (m_reqs m)) (length (y_commods p))) in *.
  assert (length rs = length (y_commods p)) as LR by (subst rs; apply seq_length).
  assert (Forall (fun r => req_at (s_mkt s1) r = nth (r - length (m_reqs m)) news req0 /\ (length (m_reqs m) <= r < length (m_reqs m) + length news)%nat) rs) as RQ.
  { apply Forall_forall. intros q Hq. apply in_seq in Hq. split; [|lia]. unfold req_at. rewrite C1. apply app_nth2. lia. }
  assert (Forall (fun r => good_req amt (y_excl p) (y_id p) x (req_at (s_mkt s1) r)) rs) as GR.
  { apply Forall_forall. intros q Hq. destruct (proj1 (Forall_forall _ _) RQ q Hq) as [-> L].
    apply (proj1 (Forall_forall _ _) C4). apply nth_In. lia. }
  assert (qsum (map (fun r => rs_qty (rq_target (req_at (s_mkt s1) r))) rs) == inject_Z (Z.of_nat (length rs)) * amt) as SQ.
  { rewrite (qsum_map_ext _ (fun _ => amt)).
    - clear. induction rs; [cbn; ring|]. cbn [map qsum length]. rewrite IHrs, Nat2Z.inj_succ, <- Z.add_1_r, inject_Z_plus. change (inject_Z 1) with 1. ring.
    - intros q Hq. destruct (proj1 (Forall_forall _ _) GR q Hq) as [-> _]. reflexivity. }
  assert (rs <> []) as RS. { intros X. rewrite X, CS in LR. discriminate. }
  rewrite (add_mutual_eq _ _ _ RS) in H.
  assert (0 < inject_Z (Z.of_nat (length rs))) as NZ. { change 0 with (inject_Z 0). rewrite <- Zlt_Qlt. rewrite LR, CS. cbn. lia. }
  assert (avg_qty (s_mkt s1) rs == amt) as AV.
  { unfold avg_qty. rewrite SQ. field. lra. }
  destruct (Qeqb (avg_qty (s_mkt s1) rs) 0) eqn:Z0.
  { injection H as <- <- <-. cbn [s_bufs s_trks s_rows s_set_mkt]. auto 10. }
  injection H as <- <- <-. cbn [s_bufs s_trks s_rows s_set_mkt].
  split; [reflexivity|]. split; [exact B1|]. split; [exact B2|]. split; [exact B3|]. right. split; [reflexivity|].
  assert (rp_at (s_mkt s1) x = rp') as PX. { unfold rp_at. rewrite C5. subst x. now rewrite app_nth2, Nat.sub_diag by lia. }
  rewrite PX. destruct (fold_mutual (s_mkt s1) (avg_qty (s_mkt s1) rs) rs rp') as [F1 [F2 F3]]. cbv zeta in F1, F2, F3 |- *.
  match goal with |- context [upd (m_rports (s_mkt s1)) x ?np] => set (np' := np) end.
  assert (upd (m_rports (s_mkt s1)) x np' = m_rports m ++ [np']) as UP.
  { rewrite C5. subst x. apply upd_app_last. }
  rewrite UP. split.
  - unfold grows. cbn [s_bufs s_trks s_rows s_world s_mkt s_set_mkt m_rports m_reqs set_rports]. repeat split; try assumption; eauto.
  - assert (rp_at (set_rports (s_mkt s1) (m_rports m ++ [np'])) x = np') as PN.
    { unfold rp_at. cbn [m_rports set_rports]. subst x. now rewrite app_nth2, Nat.sub_diag by lia. }
    unfold port_good, asks. cbn [s_mkt s_set_mkt]. rewrite PN.
    assert (rp_reqs np' = rs) as RN. { subst np'. cbn [rp_reqs]. rewrite F2, C6. reflexivity. }
    rewrite RN. change (m_reqs (set_rports (s_mkt s1) (m_rports m ++ [np']))) with (m_reqs (s_mkt s1)).
    change (m_rports (set_rports (s_mkt s1) (m_rports m ++ [np']))) with (m_rports m ++ [np']).
    change (req_at (set_rports (s_mkt s1) (m_rports m ++ [np']))) with (req_at (s_mkt s1)).
    split; [rewrite app_length; subst x; cbn; lia|].
    split. { rewrite C1, app_length. eapply Forall_impl; [|exact RQ]. cbn. lia. }
    split. { subst np'. cbn [rp_qty]. rewrite F3, C7, SQ, AV, LR. ring. }
    split. { subst np'. cbn [rp_trader]. rewrite F1, C8. reflexivity. }
    split.
    + rewrite <- C3. transitivity (map (fun r => (rq_commod (nth (r - length (m_reqs m)) news req0), rq_pref (nth (r - length (m_reqs m)) news req0))) rs).
      * apply map_ext_in. intros q Hq. now destruct (proj1 (Forall_forall _ _) RQ q Hq) as [-> _].
      * unfold rs. rewrite <- C2.
        generalize (length (m_reqs m)). clear. intros n.
        replace (seq n (length news)) with (map (fun i => (n + i)%nat) (seq 0 (length news))).
        2:{ symmetry. apply seq_from. }
        rewrite map_map. rewrite (map_ext _ (fun i => (rq_commod (nth i news req0), rq_pref (nth i news req0)))).
        2:{ intros i. replace (n + i - n)%nat with i by lia. reflexivity. }
        induction news as [|r news IH]; [reflexivity|]. cbn [length seq map nth]. f_equal.
        rewrite <- seq_shift, map_map. exact IH.
    + eapply Forall_impl; [|exact GR]. intros q [Q1 [Q2 [Q3 _]]]. rewrite Q1, Q2, Q3. repeat split.
Qed.

Lemma portfolios_spec amt n : forall s p r s' p', y_portfolios n amt (s, p) = (r, (s', p')) ->
  p' = p /\ s_bufs s' = s_bufs s /\ s_trks s' = s_trks s /\ s_rows s' = s_rows s /\
  (r = UB \/ exists ports, r = Ok ports /\ length ports = n /\ grows s s' /\ NoDup ports /\
     Forall (fun x => (length (m_rports (s_mkt s)) <= x)%nat) ports /\
     Forall (fun x => port_good (s_mkt s') x (y_id p) (y_commods p) amt (y_excl p)) ports).
Proof.
  induction n as [|n IH]; intros s p r s' p' H; cbn [y_portfolios] in H.
  - injection H as <- <- <-. repeat split. right. exists []. split; [reflexivity|]. split; [reflexivity|]. split; [apply grows_refl|]. repeat split; constructor.
  - unfold ybind at 1 in H. destruct (y_portfolio amt (s, p)) as [r1 [s1 p1]] eqn:P.
    apply portfolio_spec in P as [-> [B1 [B2 [B3 [->|[-> [G PG]]]]]]].
    { injection H as <- <- <-. auto 10. }
    unfold ybind at 1 in H. destruct (y_portfolios n amt (s1, p)) as [r2 [s2 p2]] eqn:R.
    apply IH in R as [-> [C1 [C2 [C3 [->|[ports [-> [L [G2 [N [F1 F2]]]]]]]]]]].
    { injection H as <- <- <-. rewrite C1, C2, C3. auto 10. }
    injection H as <- <- <-. rewrite C1, C2, C3. repeat split; try assumption. right.
    eexists. split; [reflexivity|]. split; [cbn; now rewrite L|].
    assert (length (m_rports (s_mkt s)) < length (m_rports (s_mkt s1)))%nat as LT by (destruct PG; assumption).
    split; [now apply grows_trans with s1|]. split; [|split].
    + constructor; [|exact N]. intro K. apply (proj1 (Forall_forall _ _) F1) in K. cbv beta in K. lia.
    + constructor; [lia|]. eapply Forall_impl; [|exact F1]. cbn. lia.
    + constructor; [|exact F2]. now apply port_good_grows with s1.
Qed.
