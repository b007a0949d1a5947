(** * SellProofs4: the claims about sell policies, from SellProofs1-3. *)
From Coq Require Import String Permutation.
From Verif Require Import Base CompModel CompSpec PackageModel PackageProofs PackageProofs2 ResourceModel ResourceSpec
  BufModel BufSpec BufProofs1 BufProofs2 BufProofs7
  GreedyModel ExchangeModel SellModel SellSpec SellProofs1 SellProofs2 SellProofs3.
Local Open Scope Q_scope.

Lemma more_kept E w w' : only_more E w w' -> none_changed w w'.
Proof.
  intros [[x X] _] i q H. rewrite qty_of_vw in *. rewrite X.
  destruct (nth_error (vw w) i) eqn:Y; [|discriminate]. rewrite (app_nth _ _ _ _ Y). auto.
Qed.

Lemma C40_bids_lemma E eps v b pos cr w k l ports s' :
  v_bids E eps v b pos cr (w, k, l) = (Ok ports, s') ->
  in_use E EMaterial w b -> 0 < e_eps E -> 0 < eps -> a_package (v_pkg v) ->
  Forall (fun s => p_fill_min (v_pkg v) <= s <= p_fill_max (v_pkg v)) l ->
  (forall r, In r (v_wanted v cr) -> 0 < rs_qty (rq_target (req_at k r))) ->
  exists lim, v_limit b v = Some lim /\
  ((b_rs b = [] \/ quantity b < eps \/ lim < eps) /\ ports = [] /\ s' = (w, k, l) \/
   (b_rs b <> [] /\ eps <= quantity b /\ eps <= lim) /\ ports = [length (m_bports k)] /\
   exists w' k' l' new os, s' = (w', k', l') /\ in_use E EMaterial w' b /\ none_changed w w' /\
     m_reqs k' = m_reqs k /\ m_rports k' = m_rports k /\ m_bids k' = m_bids k ++ new /\
     length (m_bports k') = Datatypes.S (length (m_bports k)) /\
     (forall p, (p < length (m_bports k))%nat -> bp_at k' p = bp_at k p) /\
     bp_cons (bp_at k' (length (m_bports k))) = [mkC lim CTrivial] /\
     Permutation (bp_bids (bp_at k' (length (m_bports k)))) (seq (length (m_bids k)) (length new)) /\
     map fst os = v_wanted v cr /\ map says new = bids_for v os /\ Forall (offered E v k lim) os /\
     Forall (fun d => backed E w' (if v_ignore v then rs_id (rq_target (req_at k (bd_req d))) else hd O (b_rs b)) d /\
       bd_port d = length (m_bports k) /\ bd_pref d = None) new).
Proof.
  intros H U He Hep Pk Sm Pos.
  destruct (bids_lemma _ _ _ _ _ _ _ _ _ _ _ _ H U He Hep Pk Sm Pos) as [lim [El [C|[C1 [C2 [w' [k' [l' [new [os [Es [U' [M R]]]]]]]]]]]]].
  - exists lim. auto.
  - exists lim. split; auto. right. split; auto. split; auto. exists w', k', l', new, os. split; auto. split; auto.
    split; auto. eapply more_kept; eauto.
Qed.

Lemma qty_of_qv w i : (i < length (vw w))%nat -> exists q, qty_of w i = Some q /\ qv (vw w) i = q.
Proof.
  intros H. unfold qv. rewrite qty_of_vw. destruct (nth_error (vw w) i) as [[k q]|] eqn:X; [|apply nth_error_None in X; lia].
  simpl. eauto.
Qed.

Lemma C40_trades_lemma E v trades w b resp w' b' : 0 < e_eps E -> a_package (v_pkg v) ->
  Forall (trade_ok (e_eps E) (v_pkg v)) trades ->
  in_use E EMaterial w b -> v_trades E v trades (w, b) = (Ok resp, (w', b')) ->
  in_use E EMaterial w' b' /\
  (exists n rest, shippable (v_tu v) (Z.of_nat (length trades)) = Some n /\
     trades = map fst resp ++ rest /\ (rest <> [] -> n <= Z.of_nat (length resp))%Z) /\
  NoDup (map snd resp) /\
  Forall (fun p => ~ In (snd p) (b_rs b') /\ exists q, qty_of w' (snd p) = Some q /\ 0 <= q <= t_amt (fst p)) resp /\
  exists lost, quantity b == quantity b' + sum_qty w' (map snd resp) + lost /\
    0 <= lost <= inject_Z (Z.of_nat (length resp)) * e_eps E /\
    (Forall (fun t => 2 * e_eps E < t_amt t) trades -> lost == 0).
Proof.
  intros He Pk Ok U H. unfold v_trades in H. destruct (shippable (v_tu v) (Z.of_nat (length trades))) as [n|] eqn:En; [|discriminate].
  destruct (loop_spec E v trades He Pk Ok n w b resp w' b' U H) as [U' [_ [_ [Nd [Js [Fq [[rest [Er Hr]] [lost [Q [L Z0]]]]]]]]]].
  split; auto. split; [exists n, rest; auto|]. split; auto. split.
  - apply Forall_forall. intros p Hp. destruct (Js (snd p) (in_map snd _ _ Hp)) as [_ [Lt Ni]]. split; auto.
    destruct (qty_of_qv _ _ Lt) as [q [Hq Ev]]. exists q. split; auto. rewrite Forall_forall in Fq. specialize (Fq _ Hp). rewrite Ev in Fq. auto.
  - exists lost. rewrite sum_vw. auto.
Qed.

Lemma C40_set_package_lemma E name v v' : 0 < e_eps E -> (forall n p, In (n, p) (e_pkgs E) -> a_package p) ->
  v_mgr v = true -> v_set_package E name v = Ok v' ->
  exists p, (name = unpackaged_name /\ p = pkg_unpackaged \/ name <> unpackaged_name /\ exists n, String.eqb name n = true /\ In (n, p) (e_pkgs E)) /\
    v' = v_set_pkg p v /\
    (0 < v_quant v -> p_name p <> unpackaged_name -> one_package p (v_quant v) /\ p_fill_min p - e_eps E <= v_quant v).
Proof.
  intros He Ps Hm H. unfold v_set_package in H. rewrite Hm in H. cbn [negb] in H.
  destruct (get_package_named E name) as [p| |] eqn:Gp; try discriminate.
  assert (Hp : (name = unpackaged_name /\ p = pkg_unpackaged \/ name <> unpackaged_name /\ exists n, String.eqb name n = true /\ In (n, p) (e_pkgs E)) ).
  { unfold get_package_named in Gp. destruct (String.eqb_spec name unpackaged_name) as [E1|N1]; [left; inversion Gp; auto|].
    right. split; auto. destruct (find (fun p0 => String.eqb name (fst p0)) (e_pkgs E)) as [[n p']|] eqn:F; [|discriminate]. inversion Gp; subst p'.
    exists n. apply find_some in F as [F1 F2]. auto. }
  exists p. split; auto.
  destruct (Qltb_spec 0 (v_quant v)) as [Hq|Hq]; cbn [andb] in H; [|inversion H; split; auto; intros; now elim Hq].
  destruct (String.eqb_spec (p_name p) unpackaged_name) as [E1|N1]; cbn [negb] in H; [inversion H; split; auto; intros; now elim H1|].
  destruct (String.eqb (p_strategy p) "first" || String.eqb (p_strategy p) "equal") eqn:Es; [|discriminate].
  assert (St : p_strategy p = "first"%string \/ p_strategy p = "equal"%string).
  { apply orb_prop in Es as [Es|Es]; apply String.eqb_eq in Es; auto. }
  destruct (get_fill_mass (e_eps E) p [] (v_quant v)) as [[[fill|e|] rest]|] eqn:Gf; try discriminate.
  destruct (Z.ltb_spec 1 (Z.of_nat (length fill))) as [|Len]; [discriminate|].
  destruct fill as [|f fill]; [discriminate|]. destruct fill as [|f' fill]; [|simpl in Len; lia].
  destruct (fmod_pos f (v_quant v)) eqn:Fm; [discriminate|]. inversion H; subst v'; clear H. split; auto. intros _ _.
  assert (Lp : legal_package p).
  { destruct Hp as [[_ ->]|[_ [n [_ I]]]]; [vm_compute; repeat split; discriminate|]. apply a_package_legal. eapply Ps; eauto. }
  destruct (get_fill_mass_det _ _ _ _ _ _ Lp He Hq St Gf) as [[_ ?]|[Lo [fm [n [last [[D1 [D2 [D3 _]]] [En [Ef [Hn _]]]]]]]]]; [discriminate|].
  assert (Efm : fm = f).
  { destruct (Z.to_nat n) eqn:X; [lia|]. simpl in Ef. inversion Ef; auto. }
  subst fm.
  assert (Eq : f == v_quant v).
  { unfold fmod_pos in Fm. destruct (Qltb_spec 0 (f - v_quant v * inject_Z (Qfloor (f / v_quant v)))) as [|Fm']; [discriminate|].
    apply Qnot_lt_le in Fm'. destruct (Qlt_le_dec f (v_quant v)) as [Lt|]; [|lra].
    rewrite (floor_of_small f (v_quant v) D2 Lt) in Fm'. change (inject_Z 0) with 0 in Fm'. lra. }
  split; [left; split; auto; lra|lra].
Qed.

Lemma qsum_firstn l : Forall (fun x => 0 <= x) l -> forall n, qsum (firstn n l) <= qsum l.
Proof.
  induction 1 as [|x l Hx Hl IH]; intros [|n]; simpl; try lra.
  - assert (X := IH O). simpl in X. lra.
  - specialize (IH n). lra.
Qed.
Lemma C40_offers_lemma E v k b lim o : v_limit b v = Some lim -> 0 <= quantity b -> offered E v k lim o ->
  qsum (snd o) <= rs_qty (rq_target (req_at k (fst o))) /\ qsum (snd o) <= v_thr v /\ qsum (snd o) <= quantity b.
Proof.
  intros El Hq [all [[D1 [D2 _]] [n [_ Sh]]]].
  destruct (limit_spec _ _ _ El Hq) as [L1 [L2 _]].
  assert (S : qsum (snd o) <= qsum all).
  { destruct Sh as [[_ ->]|[_ ->]]; [lra|apply qsum_firstn; auto]. }
  assert (M1 := qmin_l (rs_qty (rq_target (req_at k (fst o)))) lim). assert (M2 := qmin_r (rs_qty (rq_target (req_at k (fst o)))) lim).
  set (m := qmin _ _) in *. split; [|split]; eapply Qle_trans; try exact S; eapply Qle_trans; try exact D1; auto; eapply Qle_trans; try exact M2; auto.
Qed.
