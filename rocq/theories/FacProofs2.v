(** The requests of the facilities, one after the other. *)
From Coq Require Import String QArith List Bool Arith ZArith Lia Lqa.
From Verif Require Import Base CompModel PackageModel ResourceModel BufModel GreedyModel ExchangeModel TradeModel DreModel DreSpec
  ExchangeProofs1 DreProofs2 DreProofs3 FacModel FacSpec FacProofs1.
Import ListNotations.
Open Scope Q_scope.

Lemma nupd_fresh {V} k (f : option V -> V) m : ~ In k (map fst m) -> nupd k f m = m ++ [(k, f None)].
Proof.
  unfold nupd. induction m as [|[k' v] m' IH]; cbn; intros N; auto.
  destruct (Nat.eqb_spec k k') as [->|]; [exfalso; apply N; auto|]. rewrite IH; auto.
Qed.
Lemma Forall2_mono {A B} (P Q : A -> B -> Prop) l l' : (forall a b, P a b -> Q a b) -> Forall2 P l l' -> Forall2 Q l l'.
Proof. intros H F. induction F; constructor; auto. Qed.
Lemma upd_last {A} (l : list A) x y : upd (l ++ [x]) (length l) y = l ++ [y].
Proof. apply upd_end. Qed.

(** A request and a portfolio of a facility. *)
Definition a_req (t i p : nat) (amt : Q) (c : string) : request := mkReq (mkRsrc i amt) t c 1 false p.
Definition grown (amt : Q) (cs : list string) (q : Q) : Q := fold_left (fun q _ => q + amt) cs q.
Lemma grown_eq amt cs : forall q, grown amt cs q == q + inject_Z (Z.of_nat (length cs)) * amt.
Proof.
  induction cs as [|c cs IH]; intros q; unfold grown; cbn [fold_left length].
  - cbn. ring.
  - fold (grown amt cs (q + amt)). rewrite IH, Nat2Z.inj_succ. unfold Z.succ. rewrite inject_Z_plus. cbn. ring.
Qed.

Section Req.
Variables (t i : nat) (amt : Q).
Definition adds (p : nat) (cs : list string) : list xop := map (fun c => XAddRequest p (mkRsrc i amt) t c 1 false) cs.

Lemma construct_adds cs : forall m rps own rs co cons q,
  m_rports m = rps ++ [mkRP own rs co cons q] -> own = None \/ own = Some t ->
  Forall (fun r => (r < length (m_reqs m))%nat) (map fst co) ->
  exists own', construct m (adds (length rps) cs) =
    Some (mkM (m_reqs m ++ map (a_req t i (length rps) amt) cs)
              (rps ++ [mkRP own' (rs ++ seq (length (m_reqs m)) (length cs))
                            (co ++ map (fun r => (r, 1)) (seq (length (m_reqs m)) (length cs))) cons (grown amt cs q)])
              (m_bids m) (m_bports m) (x_rports m) (x_bports m) (x_requesters m) (x_bidders m) (x_commod m) (x_bbr m) (x_prefs m)).
Proof.
  induction cs as [|c cs IH]; intros m rps own rs co cons q RP OW FR.
  - exists own. cbn. rewrite !app_nil_r, <- RP. now destruct m.
  - cbn [adds map construct]. unfold existing, building.
    assert (L : Nat.ltb (length rps) (length (m_rports m)) = true).
    { apply Nat.ltb_lt. rewrite RP, app_length. cbn. lia. }
    rewrite L. cbn [andb]. unfold xstep, add_request.
    assert (AT : rp_at m (length rps) = mkRP own rs co cons q).
    { unfold rp_at. rewrite RP, app_nth2, Nat.sub_diag by lia. auto. }
    rewrite AT. cbn [rp_trader rp_reqs rp_coeffs rp_cons rp_qty].
    assert (VF : verify own t = Ok (Some t)).
    { destruct OW; subst; cbn; auto. now rewrite Nat.eqb_refl. }
    rewrite VF. cbn [snd]. rewrite nupd_fresh.
    2:{ intros I. rewrite Forall_forall in FR. apply FR in I. lia. }
    set (m1 := set_rports _ _).
    assert (RP1 : m_rports m1 = rps ++ [mkRP (Some t) (rs ++ [length (m_reqs m)]) (co ++ [(length (m_reqs m), 1)]) cons (q + amt)]).
    { subst m1. cbn. rewrite RP. apply upd_last. }
    destruct (IH m1 rps (Some t) (rs ++ [length (m_reqs m)]) (co ++ [(length (m_reqs m), 1)]) cons (q + amt) RP1 (or_intror eq_refl))
      as (own' & C).
    { subst m1. cbn. rewrite map_app, app_length. apply Forall_app. split; [|repeat constructor; cbn; lia].
      eapply Forall_impl; [|exact FR]. cbn. intros; lia. }
    exists own'. unfold adds in C. rewrite C. subst m1. cbn -[seq grown]. rewrite app_length, Nat.add_1_r. f_equal. f_equal.
    + now rewrite <- app_assoc.
    + rewrite <- !app_assoc. cbn [seq map app]. reflexivity.
Qed.

(** The market with the portfolio of one facility more. *)
Lemma construct_requests m cs : 0 < amt ->
  exists own, construct m (request_ops (length (m_rports m)) t i amt cs) =
    Some (mkM (m_reqs m ++ map (a_req t i (length (m_rports m)) amt) cs)
              (m_rports m ++ [mkRP own (seq (length (m_reqs m)) (length cs))
                            (map (fun r => (r, 1)) (seq (length (m_reqs m)) (length cs))) [mkC amt CTrivial] (grown amt cs 0)])
              (m_bids m) (m_bports m) (x_rports m) (x_bports m) (x_requesters m) (x_bidders m) (x_commod m) (x_bbr m) (x_prefs m)).
Proof.
  intros POS. unfold request_ops. cbn [construct building existing xstep andb].
  assert (L : Nat.ltb (length (m_rports m)) (length (m_rports (set_rports m (m_rports m ++ [rport0])))) = true).
  { apply Nat.ltb_lt. cbn. rewrite app_length. cbn. lia. }
  rewrite L. cbn [andb]. unfold add_rcons, cc_new.
  destruct (Qleb_spec amt 0); [lra|]. cbn [snd].
  assert (AT : rp_at (set_rports m (m_rports m ++ [rport0])) (length (m_rports m)) = rport0).
  { unfold rp_at. cbn. rewrite app_nth2, Nat.sub_diag by lia. auto. }
  rewrite AT. cbn [rp_trader rp_reqs rp_coeffs rp_cons rp_qty rport0 insert_at].
  set (m1 := set_rports _ _).
  assert (RP1 : m_rports m1 = m_rports m ++ [mkRP None [] [] [mkC amt CTrivial] 0]).
  { subst m1. cbn. apply upd_last. }
  destruct (construct_adds cs m1 (m_rports m) None [] [] [mkC amt CTrivial] 0 RP1 (or_introl eq_refl) (Forall_nil _)) as (own & C).
  exists own. unfold adds in C. rewrite C. subst m1. cbn -[seq grown]. reflexivity.
Qed.
End Req.

Section Collect.
Variable E : env.
Variable eps : Q.
Variable recipes : string -> option nat.
Variable fs : list fac.
Hypothesis EPS : 0 <= eps.

Definition target_ok (w : world) (o : rsrc) : Prop := exists r c,
  nth_error (w_res w) (rs_id o) = Some r /\ r_qual r = QMat c /\ (c < length (w_comps w))%nat /\ r_ctx r = false.
Definition req_ok (w : world) (q : request) : Prop := exists f, nth_error fs (rq_trader q) = Some f /\
  In (rq_commod q) (wanted_commods f) /\ eps < wanted_amount f /\ rs_qty (rq_target q) = wanted_amount f /\
  (rq_pref q = 1 /\ rq_excl q = false) /\ target_ok w (rq_target q).
Definition port_ok (m : market) (t : nat) (rp : rport) : Prop := exists f, nth_error fs t = Some f /\
  eps < wanted_amount f /\ rp_cons rp = [mkC (wanted_amount f) CTrivial] /\
  Forall (fun r => (r < length (m_reqs m))%nat /\ rq_trader (req_at m r) = t) (rp_reqs rp) /\
  map (fun r => rq_commod (req_at m r)) (rp_reqs rp) = wanted_commods f /\ wanted_commods f <> [] /\
  rp_qty rp == inject_Z (Z.of_nat (length (wanted_commods f))) * wanted_amount f /\
  (forall r, In r (rp_reqs rp) -> nfind r (rp_coeffs rp) = Some 1).
Record asked_for (owners : list nat) (w : world) (m : market) : Prop := mkAF {
  af_reqs : Forall (req_ok w) (m_reqs m);
  af_ports : Forall2 (port_ok m) owners (m_rports m);
  af_x : x_rports m = seq 0 (length (m_rports m)) }.

Lemma target_keeps w w' o : keeps w w' -> target_ok w o -> target_ok w' o.
Proof.
  intros K (r & c & N & Q & C & X). destruct (kp_res _ _ K _ _ N) as (r' & N' & _ & Q' & X').
  exists r', c. repeat split; try congruence. pose proof (kp_comps _ _ K). lia.
Qed.
Lemma req_keeps w w' q : keeps w w' -> req_ok w q -> req_ok w' q.
Proof. intros K (f & A1 & A2 & A3 & A4 & A5 & A6). exists f. repeat (split; [assumption|]). eapply target_keeps; eauto. Qed.
Lemma port_more m m' t rp more : m_reqs m' = m_reqs m ++ more -> port_ok m t rp -> port_ok m' t rp.
Proof.
  intros MR (f & A1 & A2 & A3 & A4 & A5 & A6 & A7 & A8). exists f.
  assert (AT : forall r, In r (rp_reqs rp) -> req_at m' r = req_at m r /\ (r < length (m_reqs m'))%nat).
  { intros r I. rewrite Forall_forall in A4. destruct (A4 r I) as (L & _). unfold req_at. rewrite MR.
    rewrite app_nth1, app_length by auto. split; auto. lia. }
  repeat split; auto.
  - rewrite Forall_forall in *. intros r I. destruct (AT r I) as (-> & L). split; auto. apply A4; auto.
  - rewrite <- A5. apply map_ext_in. intros r I. now destruct (AT r I) as (-> & _).
Qed.

Lemma post_forward w m owners t f i w1 :
  asked_for owners w m -> nth_error fs t = Some f -> keeps w w1 -> target_ok w1 (mkRsrc i (wanted_amount f)) ->
  wanted_commods f <> [] ->
  exists ops ps m1, post eps t m (wanted_amount f) (wanted_commods f) i = Ok (ops, ps) /\ construct m ops = Some m1 /\
    forallb (fun p => Nat.ltb p (length (m_rports m1))) ps = true /\
    asked_for (if Qltb eps (wanted_amount f) then owners ++ [t] else owners) w1
      (fold_left ctx_add_rport (nodup Nat.eq_dec ps) m1).
Proof.
  intros [AR AP AX] N K T NE. unfold post.
  assert (ARK : Forall (req_ok w1) (m_reqs m)) by (eapply Forall_impl; [|exact AR]; intros; eapply req_keeps; eauto).
  destruct (Qltb_spec eps (wanted_amount f)) as [P|P].
  - unfold cc_new. destruct (Qleb_spec (wanted_amount f) 0); [lra|].
    destruct (construct_requests t i (wanted_amount f) m (wanted_commods f)) as (own & C); [lra|].
    eexists; eexists; eexists. split; [reflexivity|]. split; [exact C|].
    split; [cbn; rewrite app_length; cbn; rewrite andb_true_r; apply Nat.ltb_lt; lia|].
    cbn [nodup fold_left]. set (m1 := mkM _ _ _ _ _ _ _ _ _ _ _) in *.
    destruct (in_dec Nat.eq_dec (length (m_rports m)) []) as [[]|_]. cbn [fold_left].
    unfold ctx_add_rport. set (m1' := mkM _ _ _ _ (x_rports m1 ++ _) _ _ _ _ _ _).
    destruct (fold_ctx_r_frame (rp_reqs (rp_at m1 (length (m_rports m)))) m1') as (SH & XR & XB & _).
    set (m2 := fold_left ctx_add_request _ m1') in *.
    assert (MQ : m_reqs m2 = m_reqs m ++ map (a_req t i (length (m_rports m)) (wanted_amount f)) (wanted_commods f)).
    { destruct SH as (S1 & _). rewrite S1. reflexivity. }
    assert (MP : m_rports m2 = m_rports m1) by (destruct SH as (_ & S2 & _); now rewrite S2).
    split.
    + rewrite MQ. apply Forall_app. split; auto. apply Forall_forall. intros q I. apply in_map_iff in I.
      destruct I as (c & <- & I). exists f. repeat split; auto.
    + rewrite MP. cbn [m1 m_rports]. apply Forall2_app.
      * eapply Forall2_mono; [|exact AP]. intros; eapply port_more; eauto.
      * constructor; [|constructor]. exists f. cbn [rp_cons rp_reqs rp_qty rp_coeffs].
        assert (AT : forall k c, nth_error (wanted_commods f) k = Some c ->
                   req_at m2 (length (m_reqs m) + k) = a_req t i (length (m_rports m)) (wanted_amount f) c).
        { intros k c NK. unfold req_at. rewrite MQ, app_nth2 by lia. replace (length (m_reqs m) + k - length (m_reqs m))%nat with k by lia.
          apply nth_error_nth. now apply map_nth_error. }
        split; [auto|]. split; [auto|]. split; [auto|]. split; [|split; [|split; [auto|split]]].
        -- apply Forall_forall. intros r I. apply in_seq in I.
           destruct (nth_error (wanted_commods f) (r - length (m_reqs m))) as [c|] eqn:NK; [|apply nth_error_None in NK; lia].
           pose proof (AT _ _ NK) as AT'. replace (length (m_reqs m) + (r - length (m_reqs m)))%nat with r in AT' by lia.
           rewrite AT'. split; auto. rewrite MQ, app_length, map_length. lia.
        -- clear - AT. remember (length (m_reqs m)) as n eqn:HN. clear HN. 
           assert (G : forall cs n, (forall k c, nth_error cs k = Some c -> rq_commod (req_at m2 (n + k)) = c) ->
                     map (fun r => rq_commod (req_at m2 r)) (seq n (length cs)) = cs).
           { induction cs as [|c cs IH]; intros n0 H; cbn; auto. f_equal.
             - specialize (H 0%nat c eq_refl). now rewrite Nat.add_0_r in H.
             - apply IH. intros k c' K'. specialize (H (S k) c' K'). now rewrite Nat.add_succ_r in H. }
           apply G. intros k c K'. rewrite (AT _ _ K'). reflexivity.
        -- rewrite grown_eq. ring.
        -- intros r I. generalize (seq (length (m_reqs m)) (length (wanted_commods f))) I. clear.
           intros l I. induction l as [|x l IH]; cbn; [inversion I|]. destruct (Nat.eqb_spec r x); auto.
           apply IH. destruct I; congruence.
    + rewrite XR, MP. cbn [m1' m1 x_rports m_rports]. rewrite AX, app_length, seq_app. reflexivity.
  - exists [], [], m. repeat split; auto.
Qed.

Lemma requests_forward w m owners t f :
  (forall n c, recipes n = Some c -> (c < length (w_comps w))%nat) ->
  asked_for owners w m -> nth_error fs t = Some f -> set_up recipes f ->
  exists m1 ev w1, add_requests state (fac_requests E eps recipes) t m (w, fs) = (Ok m1, (ev, (w1, fs))) /\ keeps w w1 /\
    asked_for (if Qltb eps (wanted_amount f) then owners ++ [t] else owners) w1 m1.
Proof.
  intros RC AF N SU. unfold add_requests, fac_requests. rewrite N.
  assert (G : forall target, (exists i w1, target w = (Ok i, w1) /\ keeps w w1 /\ target_ok w1 (mkRsrc i (wanted_amount f))) ->
    wanted_commods f <> [] ->
    exists m1 ev w1,
      match (let '(r, w1) := requests_of eps t m (wanted_amount f) (wanted_commods f) target w in (r, (w1, fs))) with
      | (Ok (ops, ps), s1) =>
          match construct m ops with
          | Some m1 =>
              if forallb (fun p => Nat.ltb p (length (m_rports m1))) ps
              then (Ok (fold_left ctx_add_rport (nodup Nat.eq_dec ps) m1), ([VRequests t (nodup Nat.eq_dec ps)], s1))
              else (UB, ([VRequests t []], s1))
          | None => (UB, ([VRequests t []], s1))
          end
      | (Throw e, s1) => (Throw e, ([VRequests t []], s1))
      | (UB, s1) => (UB, ([VRequests t []], s1))
      end = (Ok m1, (ev, (w1, fs))) /\ keeps w w1 /\
      asked_for (if Qltb eps (wanted_amount f) then owners ++ [t] else owners) w1 m1).
  { intros target (i & w1 & TE & K & TK) NE. unfold requests_of. rewrite TE.
    destruct (post_forward w m owners t f i w1 AF N K TK NE) as (ops & ps & m1 & PO & C & FB & AF1).
    rewrite PO, C, FB. eexists; eexists; eexists. split; [reflexivity|]. auto. }
  assert (GB : forall q, exists i w1, blank E q w = (Ok i, w1) /\ keeps w w1 /\ target_ok w1 (mkRsrc i q) /\
             (length (w_comps w) <= length (w_comps w1))%nat).
  { intros q. destruct (blank_made E q w) as (w1 & c & B & [K ID LN CO (r & R1 & R2 & R3 & R4)]).
    eexists; eexists. split; [exact B|]. split; [auto|]. split; [exists r, c; auto|apply K]. }
  destruct f as [s|s|k].
  - cbn. exists m, [VRequests t []], w. split; [auto|]. split; [apply keeps_refl|].
    cbn. destruct (Qltb_spec eps 0); [lra|auto].
  - apply G.
    + unfold sink_target, bind. destruct (GB (sk_cap s)) as (i & w1 & B & K & TK & LC). rewrite B.
      destruct (is_empty (sk_recipe s)) eqn:EM.
      * exists i, w1. cbn. auto.
      * destruct SU as (_ & [EE|(c & R)]); [unfold is_empty in EM; rewrite EE in EM; discriminate|].
        unfold get_recipe. rewrite R. cbn [ret].
        destruct (untracked_made (sk_cap s) c w1) as (w2 & U & [K2 ID LN CO (r & R1 & R2 & R3 & R4)] & _).
        { apply RC in R. lia. }
        unfold ret. rewrite U. eexists; eexists. split; [reflexivity|]. split; [eapply keeps_trans; eauto|].
        exists r, c. auto.
    + apply SU.
  - apply (G (blank E (k_in_cap k))); [|discriminate].
    destruct (GB (k_in_cap k)) as (i & w1 & B & K & TK & LC). exists i, w1. auto.
Qed.

(** All of them. *)
Definition posting (t : nat) : bool :=
  match nth_error fs t with Some f => Qltb eps (wanted_amount f) | None => false end.
Lemma all_requests_forward l : forall w m owners,
  (forall n c, recipes n = Some c -> (c < length (w_comps w))%nat) ->
  (forall t f, nth_error fs t = Some f -> set_up recipes f) ->
  Forall (fun t => (t < length fs)%nat) l ->
  asked_for owners w m ->
  exists m1 ev w1, for_each state (add_requests state (fac_requests E eps recipes)) l m (w, fs) = (Ok m1, (ev, (w1, fs))) /\
    keeps w w1 /\ asked_for (owners ++ filter posting l) w1 m1.
Proof.
  induction l as [|t l IH]; intros w m owners RC SU FL AF.
  - cbn. exists m, [], w. split; auto. split; [apply keeps_refl|]. now rewrite app_nil_r.
  - inversion FL as [|? ? LT FL']; subst.
    destruct (nth_error fs t) as [f|] eqn:N; [|apply nth_error_None in N; lia].
    destruct (requests_forward w m owners t f RC AF N (SU t f N)) as (m1 & ev & w1 & A & K & AF1).
    destruct (IH w1 m1 (if Qltb eps (wanted_amount f) then owners ++ [t] else owners)) as (m2 & ev2 & w2 & A2 & K2 & AF2); auto.
    { intros n c R. apply RC in R. pose proof (kp_comps _ _ K). lia. }
    cbn [for_each]. rewrite A, A2. exists m2, (ev ++ ev2), w2. split; auto. split; [eapply keeps_trans; eauto|].
    cbn [filter]. unfold posting at 1. rewrite N. destruct (Qltb eps (wanted_amount f)); auto.
    now rewrite <- app_assoc in AF2.
Qed.
End Collect.
