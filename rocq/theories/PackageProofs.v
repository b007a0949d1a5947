From Verif Require Import Base PackageModel.
From Coq Require Import ZifyBool.
Open Scope Q_scope.

Lemma Qfloor_bounds x : inject_Z (Qfloor x) <= x /\ x < inject_Z (Qfloor x) + 1.
Proof.
  split; [apply Qfloor_le|]. pose proof (Qlt_floor x) as H. rewrite inject_Z_plus in H. exact H.
Qed.
Lemma Qceiling_bounds x : inject_Z (Qceiling x) - 1 < x /\ x <= inject_Z (Qceiling x).
Proof.
  split; [|apply Qle_ceiling]. pose proof (Qceiling_lt x) as H.
  unfold Zminus in H. rewrite inject_Z_plus in H. exact H.
Qed.

Lemma inject_le a b : (a <= b)%Z <-> inject_Z a <= inject_Z b.
Proof. rewrite <- Zle_Qle. tauto. Qed.
Lemma inject_lt a b : (a < b)%Z <-> inject_Z a < inject_Z b.
Proof. rewrite <- Zlt_Qlt. tauto. Qed.

Lemma qtrunc_inject z : qtrunc (inject_Z z) = z.
Proof. unfold qtrunc. rewrite Qfloor_Z, Qceiling_Z. now destruct (Qltb _ _). Qed.

Lemma to_int_inject z : (INT_MIN <= z <= INT_MAX)%Z -> to_int (inject_Z z) = Some z.
Proof.
  intros H. unfold to_int. rewrite qtrunc_inject.
  destruct (Z.leb_spec INT_MIN z), (Z.leb_spec z INT_MAX); simpl; auto; lia.
Qed.
Lemma to_int_inject_inv z n : to_int (inject_Z z) = Some n -> n = z /\ (INT_MIN <= z <= INT_MAX)%Z.
Proof.
  unfold to_int. rewrite qtrunc_inject.
  destruct (Z.leb_spec INT_MIN z), (Z.leb_spec z INT_MAX); simpl; intros E; try discriminate.
  injection E as <-. auto.
Qed.

Lemma qdiv_some a b x : qdiv a b = Some x -> ~ b == 0 /\ x = a / b.
Proof. unfold qdiv. qcase; intros E; [discriminate|]. injection E as <-. auto. Qed.

(** *** The sampling loop *)
Lemma sample_loop_spec eps fmin fmax samples : forall qty acc out remain rest,
  0 <= fmin -> Forall (fun s => fmin <= s <= fmax) samples -> 0 <= qty ->
  sample_loop eps fmax samples qty acc = Some (out, remain, rest) ->
  exists drawn, out = acc ++ drawn /\ samples = drawn ++ rest /\
    remain == qty - qsum drawn /\ 0 <= remain /\ remain < qmax eps fmax /\
    Forall (fun s => fmin <= s <= fmax) drawn.
Proof.
  induction samples as [|s samples IH]; cbn [sample_loop]; intros qty acc out remain rest Hm Hs Hq.
  - destruct (Qleb_spec (qmax eps fmax) qty); [discriminate|]. intros E; injection E as <- <- <-.
    exists []. rewrite app_nil_r. simpl. repeat split; auto; lra.
  - destruct (Qleb_spec (qmax eps fmax) qty) as [L|L].
    + intros E. inversion Hs as [|? ? [B1 B2] Hs']; subst.
      pose proof (qmax_r eps fmax). apply IH in E; auto; [|lra].
      destruct E as [drawn [-> [-> [E1 [E2 [E3 E4]]]]]].
      exists (s :: drawn). rewrite <- app_assoc. simpl. repeat split; auto; try lra.
    + intros E; injection E as <- <- <-. exists []. rewrite app_nil_r. simpl.
      repeat split; auto; lra.
Qed.

Lemma sample_loop_terminates eps fmin fmax samples : forall qty acc,
  0 < fmin -> Forall (fun s => fmin <= s) samples -> 0 < eps ->
  qty <= inject_Z (Z.of_nat (length samples)) * fmin ->
  exists r, sample_loop eps fmax samples qty acc = Some r.
Proof.
  induction samples as [|s samples IH]; intros qty acc Hm Hs He Hq; cbn [sample_loop].
  - destruct (Qleb_spec (qmax eps fmax) qty) as [L|L]; [|eauto].
    pose proof (qmax_l eps fmax). cbn [length] in Hq. change (inject_Z (Z.of_nat 0)) with 0 in Hq. lra.
  - destruct (Qleb_spec (qmax eps fmax) qty) as [L|L]; [|eauto].
    inversion Hs; subst. apply IH; auto. cbn [length] in Hq.
    rewrite Nat2Z.inj_succ, <- Z.add_1_l, inject_Z_plus in Hq. change (inject_Z 1) with 1 in Hq. lra.
Qed.

Lemma fill_tail_spec eps fmin pk qty fills :
  fill_tail eps fmin pk qty = Ok fills ->
  (qmax eps fmin <= qty /\ fills = pk ++ [qty]) \/ (qty < qmax eps fmin /\ fills = pk).
Proof.
  unfold fill_tail. qcase; destruct (exceeds_split_limits _); intros E; try discriminate;
    injection E as <-; [left|right]; split; auto; lra.
Qed.

Lemma ceil_pos x : 0 < x -> (1 <= Qceiling x)%Z.
Proof.
  intros H. pose proof (Qceiling_bounds x) as [_ H2].
  assert (0 < Qceiling x)%Z by (apply inject_lt; change (inject_Z 0) with 0; lra). lia.
Qed.
Lemma floor_nonneg x : 0 <= x -> (0 <= Qfloor x)%Z.
Proof.
  intros H. pose proof (Qfloor_bounds x) as [_ H2].
  assert (-1 < Qfloor x)%Z; [|lia]. apply inject_lt. change (inject_Z (-1)) with (-(1)). lra.
Qed.

(** What the deterministic strategies produce for a chosen fill mass. *)
Lemma fixed_fill eps fmin fm qty n fills :
  0 < qty -> 0 < fm -> fm <= qty -> n = Qfloor (qty / fm) -> 0 < eps ->
  fill_tail eps fmin (repeat fm (Z.to_nat n)) (qty - inject_Z n * fm) = Ok fills ->
  exists last, fills = repeat fm (Z.to_nat n) ++ last /\ (1 <= n)%Z /\
    (last = [] \/ exists x, last = [x] /\ qmax eps fmin <= x /\ x < fm) /\
    qsum fills <= qty /\ qty - qsum fills < qmax eps fmin /\ qty - qsum fills < fm.
Proof.
  intros Hq Hfm Hle -> He Hft.
  pose proof (Qfloor_bounds (qty / fm)) as [F1 F2].
  set (n := Qfloor (qty / fm)) in *.
  assert (Hn1 : (1 <= n)%Z).
  { assert (1 <= qty / fm).
    { apply Qle_shift_div_l; lra. }
    assert (0 < n)%Z; [|lia]. apply inject_lt. change (inject_Z 0) with 0. lra. }
  assert (L1 : inject_Z n * fm <= qty).
  { apply Qle_trans with (qty / fm * fm); [apply Qmult_le_compat_r; lra|].
    setoid_replace (qty / fm * fm) with qty by (field; lra). lra. }
  assert (L2 : qty < inject_Z n * fm + fm).
  { apply Qle_lt_trans with (qty / fm * fm).
    - setoid_replace (qty / fm * fm) with qty by (field; lra). lra.
    - setoid_replace (inject_Z n * fm + fm) with ((inject_Z n + 1) * fm) by ring.
      apply Qmult_lt_compat_r; lra. }
  assert (S : qsum (repeat fm (Z.to_nat n)) == inject_Z n * fm).
  { rewrite qsum_repeat, Z2Nat.id by lia. reflexivity. }
  pose proof (qmax_l eps fmin) as M.
  apply fill_tail_spec in Hft as [[A ->]|[A ->]].
  - exists [qty - inject_Z n * fm]. rewrite qsum_app, S. simpl.
    repeat split; auto; try lra. right. exists (qty - inject_Z n * fm). repeat split; auto; lra.
  - exists []. rewrite app_nil_r, S. repeat split; auto; lra.
Qed.

Definition legal_package (p : package) : Prop :=
  0 <= p_fill_min p /\ p_fill_min p <= p_fill_max p /\
  pkg_valid_strategy (p_strategy p) = true.

Lemma pkg_create_legal e n a b s p : pkg_create e n a b s = Ok p -> legal_package p /\
  p_name p = n /\ p_fill_min p = a /\ p_fill_max p = b /\ p_strategy p = s.
Proof.
  unfold pkg_create, pkg_ctor, legal_package. intros H.
  destruct (Qltb_spec a 0), (Qltb_spec b 0); cbn [orb] in H; try discriminate.
  destruct (Qltb_spec b a); [discriminate|].
  destruct (String.eqb n unpackaged_name && e)%bool; [discriminate|].
  destruct (pkg_valid_strategy s) eqn:V; [|discriminate]. cbn [negb] in H.
  destruct (String.eqb s "normal" && Qeqb a b)%bool; [discriminate|].
  injection H as <-. simpl. repeat split; auto; lra.
Qed.

Lemma equal_fill_bounds qty fmin fmax : 0 < fmin -> fmin <= fmax -> 0 < qty ->
  (Qceiling (qty / fmax) <= Qfloor (qty / fmin))%Z ->
  let n := Qceiling (qty / fmax) in
  (1 <= n)%Z /\ fmin <= qty / inject_Z n /\ qty / inject_Z n <= fmax /\ qty / inject_Z n <= qty.
Proof.
  intros H0 H1 Hq H n.
  assert (Hmax : 0 < fmax) by lra.
  assert (P : 0 < qty / fmax) by (apply Qlt_shift_div_l; lra).
  pose proof (ceil_pos _ P) as Hn. fold n in Hn.
  assert (Hn' : 1 <= inject_Z n) by (apply inject_le in Hn; exact Hn).
  pose proof (Qceiling_bounds (qty / fmax)) as [_ C]. fold n in C.
  pose proof (Qfloor_bounds (qty / fmin)) as [F _].
  apply inject_le in H. fold n in H.
  assert (qty <= inject_Z n * fmax).
  { apply Qle_trans with (qty / fmax * fmax).
    - setoid_replace (qty / fmax * fmax) with qty by (field; lra). lra.
    - apply Qmult_le_compat_r; lra. }
  assert (fmin * inject_Z n <= qty).
  { apply Qle_trans with (qty / fmin * fmin).
    - rewrite Qmult_comm. apply Qmult_le_compat_r; lra.
    - setoid_replace (qty / fmin * fmin) with qty by (field; lra). lra. }
  repeat split; auto.
  - apply Qle_shift_div_l; lra.
  - apply Qle_shift_div_r; lra.
  - apply Qle_shift_div_r; [lra|]. nra.
Qed.

(** The chosen fill mass of the deterministic strategies. *)
Definition det_fill_ok (p : package) (qty fm : Q) : Prop :=
  fm <= p_fill_max p /\ 0 < fm /\ fm <= qty /\ (p_fill_min p <= qty -> p_fill_min p <= fm) /\
  (qty < p_fill_min p -> fm == qty).

Lemma floor_of_small qty fmin : 0 < qty -> qty < fmin -> Qfloor (qty / fmin) = 0%Z.
Proof.
  intros H1 H2. pose proof (Qfloor_bounds (qty / fmin)) as [A B].
  assert (0 < qty / fmin) by (apply Qlt_shift_div_l; lra).
  assert (qty / fmin < 1) by (apply Qlt_shift_div_r; lra).
  assert (Qfloor (qty / fmin) < 1)%Z by (apply inject_lt; change (inject_Z 1) with 1; lra).
  assert (-1 < Qfloor (qty / fmin))%Z by (apply inject_lt; change (inject_Z (-1)) with (-(1)); lra).
  lia.
Qed.

Lemma choose_fill_ok p qty fm :
  legal_package p -> 0 < qty -> 0 < p_fill_max p ->
  p_strategy p = "first"%string \/ p_strategy p = "equal"%string ->
  choose_fill p qty = Some fm ->
  det_fill_ok p qty (qmin qty fm) /\
  (p_strategy p = "equal"%string ->
   (Qceiling (qty / p_fill_max p) <= Qfloor (qty / p_fill_min p))%Z ->
   0 < p_fill_min p /\ qmin qty fm == qty / inject_Z (Qceiling (qty / p_fill_max p))).
Proof.
  intros [L0 [L1 L2]] Hq Hmax Hstr H. unfold choose_fill in H.
  assert (Hdet : forall fm0, fm0 = p_fill_max p -> det_fill_ok p qty (qmin qty fm0)).
  { intros fm0 ->. unfold det_fill_ok, qmin. qcase; repeat split; intros; lra. }
  destruct Hstr as [Hs|Hs]; rewrite Hs in *.
  - cbn in H. injection H as <-. split; auto. discriminate.
  - cbn [String.eqb] in H.
    change (String.eqb "equal" "first") with false in H. cbv iota in H.
    destruct (qdiv qty (p_fill_min p)) as [x|] eqn:Ex; [|discriminate].
    apply qdiv_some in Ex as [N1 ->]. cbn [obind] in H.
    destruct (to_int (inject_Z (Qfloor _))) as [n1|] eqn:E1; [|discriminate].
    apply to_int_inject_inv in E1 as [-> _]. cbn [obind] in H.
    destruct (qdiv qty (p_fill_max p)) as [x|] eqn:Ex; [|discriminate].
    apply qdiv_some in Ex as [N2 ->]. cbn [obind] in H.
    destruct (to_int (inject_Z (Qceiling _))) as [n2|] eqn:E2; [|discriminate].
    apply to_int_inject_inv in E2 as [-> _]. cbn [obind] in H.
    assert (Hmin : 0 < p_fill_min p) by lra.
    destruct (Z.leb_spec (Qceiling (qty / p_fill_max p)) (Qfloor (qty / p_fill_min p))) as [Hle|Hgt].
    + apply qdiv_some in H as [N3 ->].
      pose proof (equal_fill_bounds qty _ _ Hmin L1 Hq Hle) as [Hn [B1 [B2 B3]]].
      assert (Q0 : qmin qty (qty / inject_Z (Qceiling (qty / p_fill_max p))) ==
                   qty / inject_Z (Qceiling (qty / p_fill_max p))) by (unfold qmin; qcase; lra).
      split; [|auto].
      unfold det_fill_ok. rewrite Q0. repeat split; intros; lra.
    + injection H as <-. split; auto. intros; lia.
Qed.

Lemma fill_fixed_ok eps fmin qty fm fills : fill_fixed eps fmin qty fm = Ok fills ->
  let n := Qfloor (qty / qmin qty fm) in
  fill_tail eps fmin (repeat (qmin qty fm) (Z.to_nat n)) (qty - inject_Z n * qmin qty fm) = Ok fills.
Proof.
  unfold fill_fixed. destruct (qdiv qty (qmin qty fm)) as [x|] eqn:Ex; [|discriminate].
  apply qdiv_some in Ex as [_ ->]. cbn [obind].
  destruct (to_int _) as [n|] eqn:En; [|discriminate]. apply to_int_inject_inv in En as [-> _].
  destruct (exceeds_split_limits _); [discriminate|].
  destruct (Z.ltb _ _); [discriminate|]. auto.
Qed.

Lemma Forall_repeat {A} (P : A -> Prop) x n : P x -> Forall P (repeat x n).
Proof. intros. induction n; simpl; constructor; auto. Qed.

Lemma strategy_cases p : legal_package p ->
  (p_strategy p = "first"%string \/ p_strategy p = "equal"%string) \/
  (String.eqb (p_strategy p) "first" || String.eqb (p_strategy p) "equal" = false /\
   String.eqb (p_strategy p) "uniform" || String.eqb (p_strategy p) "normal" = true)%bool.
Proof.
  intros [_ [_ V]]. unfold pkg_valid_strategy in V.
  destruct (String.eqb_spec (p_strategy p) "first"); [auto|].
  destruct (String.eqb_spec (p_strategy p) "equal"); [auto|]. right. split; auto.
Qed.

(** The deterministic strategies in one lemma. *)
Lemma get_fill_mass_det eps p samples qty fills rest :
  legal_package p -> 0 < eps -> 0 < qty ->
  p_strategy p = "first"%string \/ p_strategy p = "equal"%string ->
  get_fill_mass eps p samples qty = Some (Ok fills, rest) ->
  (qty - p_fill_min p < - eps /\ fills = []) \/
  (- eps <= qty - p_fill_min p /\
   exists fm n last, det_fill_ok p qty fm /\ n = Qfloor (qty / fm) /\
    fills = repeat fm (Z.to_nat n) ++ last /\ (1 <= n)%Z /\
    (last = [] \/ exists x, last = [x] /\ qmax eps (p_fill_min p) <= x /\ x < fm) /\
    qsum fills <= qty /\ qty - qsum fills < qmax eps (p_fill_min p) /\ qty - qsum fills < fm /\
    (p_strategy p = "equal"%string ->
     (Qceiling (qty / p_fill_max p) <= Qfloor (qty / p_fill_min p))%Z ->
     0 < p_fill_min p /\ fm == qty / inject_Z (Qceiling (qty / p_fill_max p)))).
Proof.
  intros L He Hq Hstr H. unfold get_fill_mass in H.
  destruct (Qltb_spec (qty - p_fill_min p) (- eps)) as [B|B].
  { injection H as <- <-. auto. }
  right. split; [lra|].
  destruct (qdiv qty (p_fill_max p)) as [x|] eqn:Ex; [|discriminate].
  apply qdiv_some in Ex as [Hfmax ->]. cbn [obind] in H.
  destruct (to_int _) as [n0|]; [|discriminate].
  destruct (exceeds_split_limits n0); [discriminate|].
  assert (Hor : (String.eqb (p_strategy p) "first" || String.eqb (p_strategy p) "equal")%bool = true).
  { destruct Hstr as [-> | ->]; reflexivity. }
  rewrite Hor in H. destruct (choose_fill p qty) as [fm|] eqn:Ec; [|discriminate].
  injection H as H _.
  assert (Hmax : 0 < p_fill_max p) by (destruct L as [? [? _]]; lra).
  apply choose_fill_ok in Ec as [D E]; auto.
  apply fill_fixed_ok in H. cbv zeta in H.
  destruct D as [D1 [D2 [D3 [D4 D5]]]].
  eapply fixed_fill in H; eauto.
  destruct H as [last [-> [H1 [H2 [H3 [H4 H5]]]]]].
  exists (qmin qty fm), (Qfloor (qty / qmin qty fm)), last.
  unfold det_fill_ok. repeat split; auto; apply E; auto.
Qed.

Lemma get_fill_mass_rand eps p samples qty fills rest :
  legal_package p -> 0 < eps -> 0 < qty ->
  (String.eqb (p_strategy p) "first" || String.eqb (p_strategy p) "equal" = false)%bool ->
  (String.eqb (p_strategy p) "uniform" || String.eqb (p_strategy p) "normal" = true)%bool ->
  Forall (fun s => p_fill_min p <= s <= p_fill_max p) samples ->
  get_fill_mass eps p samples qty = Some (Ok fills, rest) ->
  (qty - p_fill_min p < - eps /\ fills = [] /\ rest = samples) \/
  (- eps <= qty - p_fill_min p /\
   exists drawn last, samples = drawn ++ rest /\ fills = drawn ++ last /\
     (last = [] \/ exists x, last = [x] /\ qmax eps (p_fill_min p) <= x /\ x <= p_fill_max p) /\
     (fills = [] -> qty < qmax eps (p_fill_min p)) /\
     qsum fills <= qty /\ qty - qsum fills < qmax eps (p_fill_min p)).
Proof.
  intros L He Hq N1 N2 Hs H. unfold get_fill_mass in H.
  destruct (Qltb_spec (qty - p_fill_min p) (- eps)) as [B|B].
  { injection H as <- <-. auto. }
  right. split; [lra|].
  destruct (qdiv qty (p_fill_max p)) as [x|] eqn:Ex; [|discriminate].
  apply qdiv_some in Ex as [Hfmax ->]. cbn [obind] in H.
  destruct (to_int _) as [n0|]; [|discriminate].
  destruct (exceeds_split_limits n0); [discriminate|].
  rewrite N1, N2 in H. destruct (sample_loop _ _ _ _ _) as [[[out remain] rest']|] eqn:El; [|discriminate].
  injection H as H <-. destruct L as [L0 [L1 L2]].
  eapply sample_loop_spec in El; eauto; [|lra].
  destruct El as [drawn [-> [-> [E1 [E2 [E3 E4]]]]]]. cbn [app] in H.
  pose proof (qmax_l eps (p_fill_min p)).
  apply fill_tail_spec in H as [[A ->]|[A ->]].
  - exists drawn, [remain]. rewrite qsum_app. simpl. split; [reflexivity|]. split; [reflexivity|].
    split; [|split; [|split]].
    + right. exists remain. repeat split; auto.
      (* remain < max eps fmax; if fmax < eps then remain >= eps contradicts *)
      destruct (qmax_cases eps (p_fill_max p)) as [C|C]; rewrite C in E3; lra.
    + destruct drawn; discriminate.
    + lra.
    + lra.
  - exists drawn, []. rewrite app_nil_r. repeat split; auto; try lra.
    intros ->. simpl in E1. lra.
Qed.

Lemma fills_within_limits eps p samples qty fills rest :
  legal_package p -> 0 < eps -> 0 < qty ->
  Forall (fun s => p_fill_min p <= s <= p_fill_max p) samples ->
  get_fill_mass eps p samples qty = Some (Ok fills, rest) ->
  Forall (fun f => p_fill_min p - eps <= f <= p_fill_max p) fills /\
  (p_fill_min p <= qty -> Forall (fun f => p_fill_min p <= f) fills) /\
  Forall (fun f => 0 <= f) fills /\
  qsum fills <= qty /\ qty - qsum fills < qmax eps (p_fill_min p).
Proof.
  intros L He Hq Hs H. pose proof (qmax_r eps (p_fill_min p)). pose proof (qmax_l eps (p_fill_min p)).
  pose proof L as [L0 [L1 _]].
  destruct (strategy_cases p L) as [S|[S1 S2]].
  - apply get_fill_mass_det in H; auto.
    destruct H as [[A ->]|[A [fm [n [last [[D1 [D2 [D3 [D4 D5]]]] [En [-> [Hn [Hl [B1 [B2 [B3 _]]]]]]]]]]]]].
    { simpl. repeat split; auto; lra. }
    assert (C1 : p_fill_min p - eps <= fm).
    { destruct (Qlt_le_dec qty (p_fill_min p)) as [C|C]; [rewrite D5; lra|specialize (D4 C); lra]. }
    repeat split; auto.
    + apply Forall_app. split; [apply Forall_repeat; lra|].
      destruct Hl as [->|[x [-> [? ?]]]]; repeat constructor; lra.
    + intros Hge. apply Forall_app. split; [apply Forall_repeat; auto|].
      destruct Hl as [->|[x [-> [? ?]]]]; repeat constructor; lra.
    + apply Forall_app. split; [apply Forall_repeat; lra|].
      destruct Hl as [->|[x [-> [? ?]]]]; repeat constructor; lra.
  - pose proof H as H'. eapply get_fill_mass_rand in H; eauto.
    destruct H as [[A [-> _]]|[A [drawn [last [E1 [-> [Hl [_ [B1 B2]]]]]]]]].
    { simpl. repeat split; auto; lra. }
    rewrite E1 in Hs. apply Forall_app in Hs as [Hs _].
    repeat split; auto.
    + apply Forall_app. split; [eapply Forall_impl; [|exact Hs]; simpl; intros; lra|].
      destruct Hl as [->|[x [-> [? ?]]]]; repeat constructor; lra.
    + intros Hge. apply Forall_app. split; [eapply Forall_impl; [|exact Hs]; simpl; intros; lra|].
      destruct Hl as [->|[x [-> [? ?]]]]; repeat constructor; lra.
    + apply Forall_app. split; [eapply Forall_impl; [|exact Hs]; simpl; intros; lra|].
      destruct Hl as [->|[x [-> [? ?]]]]; repeat constructor; lra.
Qed.

Lemma fills_empty eps p samples qty rest :
  legal_package p -> 0 < eps -> 0 < qty ->
  Forall (fun s => p_fill_min p <= s <= p_fill_max p) samples ->
  get_fill_mass eps p samples qty = Some (Ok [], rest) -> qty < qmax eps (p_fill_min p).
Proof.
  intros L He Hq Hs H. pose proof (qmax_r eps (p_fill_min p)). pose proof (qmax_l eps (p_fill_min p)).
  destruct (fills_within_limits _ _ _ _ _ _ L He Hq Hs H) as [_ [_ [_ [_ B]]]]. simpl in B. lra.
Qed.

Lemma equal_strategy_exact eps p samples qty fills rest :
  legal_package p -> 0 < eps -> 0 < qty -> p_strategy p = "equal"%string ->
  (Qceiling (qty / p_fill_max p) <= Qfloor (qty / p_fill_min p))%Z ->
  get_fill_mass eps p samples qty = Some (Ok fills, rest) ->
  exists f, fills = repeat f (Z.to_nat (Qceiling (qty / p_fill_max p))) /\
    f == qty / inject_Z (Qceiling (qty / p_fill_max p)) /\ qsum fills == qty.
Proof.
  intros L He Hq Hs Hle H. pose proof L as [L0 [L1 _]].
  apply get_fill_mass_det in H; auto.
  destruct H as [[A ->]|[A [fm [n [last [[D1 [D2 [D3 [D4 D5]]]] [En [-> [Hn [Hl [B1 [B2 [B3 B4]]]]]]]]]]]]].
  - exfalso.
    destruct (Qlt_le_dec 0 (p_fill_min p)) as [P|P].
    + rewrite (floor_of_small qty (p_fill_min p)) in Hle by lra.
      assert (0 < qty / p_fill_max p) by (apply Qlt_shift_div_l; lra).
      pose proof (ceil_pos _ H). lia.
    + lra.
  - destruct (B4 Hs Hle) as [P Efm].
    destruct (equal_fill_bounds qty _ _ P L1 Hq Hle) as [Hc [C1 [C2 C3]]].
    set (m := Qceiling (qty / p_fill_max p)) in *.
    assert (Hm : 1 <= inject_Z m) by (apply inject_le in Hc; exact Hc).
    assert (Ed : qty / fm == inject_Z m). { rewrite Efm. field. split; lra. }
    assert (En' : n = m). { rewrite En, Ed, Qfloor_Z. reflexivity. }
    exists fm. clear En. subst n.
    assert (last = []).
    { destruct Hl as [->|[x [-> [X1 X2]]]]; auto. exfalso.
      rewrite qsum_app, qsum_repeat, Z2Nat.id in B1 by lia. simpl in B1.
      assert (inject_Z m * fm == qty) by (rewrite Efm; field; lra).
      pose proof (qmax_l eps (p_fill_min p)). lra. }
    subst last. rewrite app_nil_r. repeat split; auto.
    rewrite qsum_repeat, Z2Nat.id by lia. rewrite Efm. field. lra.
Qed.
