(** * SellProofs1: dividing an amount, and the bids of a sell policy. *)
From Coq Require Import String Permutation.
From Verif Require Import Base CompModel CompSpec PackageModel PackageProofs PackageProofs2 ResourceModel ResourceSpec
  ResourceProofs1 ResourceProofs2 BufModel BufSpec BufProofs1 BufProofs2 BufProofs4 BufProofs6 BufProofs7
  GreedyModel ExchangeModel SellModel SellSpec.
Local Open Scope Q_scope.
Local Opaque DBL_MAX.

Lemma floor_unit q : 0 < q -> Qfloor (q / q) = 1%Z.
Proof.
  intros H. assert (X : q / q == 1) by (field; lra).
  rewrite (Qfloor_comp _ _ X). reflexivity.
Qed.
Lemma ceil_small q m : 0 < q -> q <= m -> Qceiling (q / m) = 1%Z.
Proof.
  intros H L. assert (P : 0 < q / m) by (apply Qlt_shift_div_l; lra).
  assert (U : q / m <= 1) by (apply Qle_shift_div_r; lra).
  destruct (Qceiling_bounds (q / m)) as [A B].
  assert (X : (1 <= Qceiling (q / m))%Z) by (apply ceil_pos; auto).
  assert (Y : (Qceiling (q / m) - 1 < 1)%Z).
  { apply inject_lt. unfold Zminus. rewrite inject_Z_plus. change (inject_Z (- (1))) with (- (1)). change (inject_Z 1) with 1. lra. }
  lia.
Qed.

Lemma one_fill eps p samples q fills rest : legal_package p -> 0 < eps -> 0 < q -> one_package p q ->
  get_fill_mass eps p samples q = Some (Ok fills, rest) ->
  (fills = [] /\ (q - p_fill_min p < - eps \/ ~ (p_strategy p = "first"%string \/ p_strategy p = "equal"%string))) \/
  exists f, fills = [f] /\ f == q.
Proof.
  intros L He Hq Ho H. unfold get_fill_mass in H.
  destruct (Qltb_spec (q - p_fill_min p) (- eps)) as [B|B]; [inversion H; auto|].
  destruct (qdiv q (p_fill_max p)) as [x|] eqn:Ex; [|discriminate].
  apply qdiv_some in Ex as [Hfmax ->]. cbn [obind] in H.
  destruct (to_int _) as [n0|]; [|discriminate].
  destruct (exceeds_split_limits n0); [discriminate|].
  destruct (strategy_cases p L) as [Hs|[S1 S2]].
  - assert (Hor : (String.eqb (p_strategy p) "first" || String.eqb (p_strategy p) "equal")%bool = true).
    { destruct Hs as [-> | ->]; reflexivity. }
    rewrite Hor in H. destruct (choose_fill p q) as [fm|] eqn:Ec; [|discriminate]. injection H as H _.
    assert (Hle : q <= p_fill_max p) by (destruct Ho as [[_ ?]|?]; lra).
    assert (F : qmin q fm == q).
    { unfold choose_fill in Ec. destruct Hs as [Hs|Hs]; rewrite Hs in Ec.
      - cbn in Ec. injection Ec as <-. unfold qmin. qcase; lra.
      - change (String.eqb "equal" "first") with false in Ec. cbv iota in Ec.
        destruct (qdiv q (p_fill_min p)) as [x|] eqn:Ex; [|discriminate].
        apply qdiv_some in Ex as [N1 ->]. cbn [obind] in Ec.
        destruct (to_int (inject_Z (Qfloor _))) as [n1|] eqn:E1; [|discriminate].
        apply to_int_inject_inv in E1 as [-> _]. cbn [obind] in Ec.
        destruct (qdiv q (p_fill_max p)) as [x|] eqn:Ex; [|discriminate].
        apply qdiv_some in Ex as [N2 ->]. cbn [obind] in Ec.
        destruct (to_int (inject_Z (Qceiling _))) as [n2|] eqn:E2; [|discriminate].
        apply to_int_inject_inv in E2 as [-> _]. cbn [obind] in Ec.
        rewrite (ceil_small q (p_fill_max p)) in Ec by lra.
        destruct (Z.leb _ _).
        + apply qdiv_some in Ec as [_ ->]. change (inject_Z 1) with 1. assert (X : q / 1 == q) by field.
          unfold qmin. qcase; lra.
        + injection Ec as <-. unfold qmin. qcase; lra. }
    apply fill_fixed_ok in H. cbv zeta in H.
    assert (Fl : Qfloor (q / qmin q fm) = 1%Z) by (rewrite (Qfloor_comp _ (q / q)); [apply floor_unit; auto|rewrite F; reflexivity]).
    rewrite Fl in H. change (repeat (qmin q fm) (Z.to_nat 1)) with [qmin q fm] in H.
    apply fill_tail_spec in H as [[H _]|[_ ->]].
    + exfalso. revert H. change (inject_Z 1) with 1. unfold qmax. qcase; lra.
    + right. exists (qmin q fm). auto.
  - assert (Nd : ~ (p_strategy p = "first"%string \/ p_strategy p = "equal"%string)).
    { intros [X|X]; rewrite X in S1; discriminate. }
    rewrite S1, S2 in H. unfold one_package in Ho. assert (Hlt : q < p_fill_max p).
    { destruct Ho as [[[X|X] _]|?]; auto; rewrite X in S1; discriminate. }
    destruct samples as [|s samples]; cbn [sample_loop] in H.
    + destruct (Qleb_spec (qmax eps (p_fill_max p)) q) as [Y|Y]; [exfalso; revert Y; unfold qmax; qcase; lra|].
      injection H as H _. apply fill_tail_spec in H as [[_ ->]|[_ ->]]; auto. right. exists q. split; [reflexivity|lra].
    + destruct (Qleb_spec (qmax eps (p_fill_max p)) q) as [Y|Y]; [exfalso; revert Y; unfold qmax; qcase; lra|].
      injection H as H _. apply fill_tail_spec in H as [[_ ->]|[_ ->]]; auto. right. exists q. split; [reflexivity|lra].
Qed.

Lemma a_package_legal p : a_package p -> legal_package p.
Proof. intros [e [n [a [b [s H]]]]]. now apply pkg_create_legal in H. Qed.

(** ** The limit *)
Lemma limit_spec b v l : v_limit b v = Some l -> 0 <= quantity b ->
  l <= v_thr v /\ l <= quantity b /\
  (0 < v_quant v -> exists n, l == qmin (v_thr v) (v_quant v * inject_Z n) /\ v_quant v * inject_Z n <= quantity b < v_quant v * (inject_Z n + 1)) /\
  (v_quant v <= 0 -> l == qmin (v_thr v) (quantity b)).
Proof.
  unfold v_limit, v_excl. intros H Hq. destruct (Qltb_spec 0 (v_quant v)) as [P|P].
  - destruct (qdiv (quantity b) (v_quant v)) as [x|] eqn:Ex; [|discriminate].
    apply qdiv_some in Ex as [N ->]. cbn [obind] in H. destruct (to_int _) as [n|] eqn:En; [|discriminate].
    apply to_int_inject_inv in En as [-> _]. cbn [obind] in H. injection H as <-.
    destruct (Qfloor_bounds (quantity b / v_quant v)) as [A B].
    set (n := Qfloor _) in *.
    assert (A' : v_quant v * inject_Z n <= quantity b).
    { apply (Qmult_le_l _ _ _ P) in A. assert (X : v_quant v * (quantity b / v_quant v) == quantity b) by (field; lra). lra. }
    assert (B' : quantity b < v_quant v * (inject_Z n + 1)).
    { apply (Qmult_lt_l _ _ _ P) in B. assert (X : v_quant v * (quantity b / v_quant v) == quantity b) by (field; lra). lra. }
    split; [apply qmin_l|]. split; [eapply Qle_trans; [apply qmin_r|exact A']|]. split; [|intros; lra].
    intros _. exists n. split; [reflexivity|auto].
  - injection H as <-. split; [unfold qmin; qcase; lra|]. split; [unfold qmin; qcase; lra|]. split; [intros; lra|intros; lra].
Qed.

Lemma qsum_repeat' q n : qsum (repeat q n) == q * inject_Z (Z.of_nat n).
Proof.
  induction n as [|n IH]; [simpl; ring|]. cbn [repeat qsum]. rewrite IH, Nat2Z.inj_succ, <- Z.add_1_l, inject_Z_plus.
  change (inject_Z 1) with 1. ring.
Qed.

Lemma unpackaged_fill eps samples q fills rest : 0 < eps -> 0 < q -> q < DBL_MAX ->
  get_fill_mass eps pkg_unpackaged samples q = Some (Ok fills, rest) -> exists x, fills = [x] /\ x == q.
Proof.
  intros He Hq Hd H.
  assert (L : legal_package pkg_unpackaged).
  { unfold legal_package. cbn. split; [lra|]. split; [lra|reflexivity]. }
  assert (O : one_package pkg_unpackaged q) by (left; cbn; split; [auto|lra]).
  destruct (one_fill _ _ _ _ _ _ L He Hq O H) as [[_ [X|X]]|X]; auto.
  - cbn in X. lra.
  - exfalso. apply X. left. reflexivity.
Qed.

Lemma pieces_spec eps v samples most all rest E : e_eps E = eps -> 0 < eps -> 0 < most -> a_package (v_pkg v) ->
  Forall (fun s => p_fill_min (v_pkg v) <= s <= p_fill_max (v_pkg v)) samples ->
  v_pieces E v samples most = (Ok all, rest) -> divided eps v most all /\ exists used, samples = used ++ rest.
Proof.
  intros <- He Hm Hp Hs H. unfold v_pieces, v_excl in H. unfold divided. destruct (Qltb_spec 0 (v_quant v)) as [P|P].
  - destruct (qdiv most (v_quant v)) as [x|] eqn:Ex; [|discriminate]. apply qdiv_some in Ex as [N ->]. cbn [obind] in H.
    destruct (to_int _) as [n|] eqn:En; [|discriminate]. apply to_int_inject_inv in En as [-> _].
    destruct (Qfloor_bounds (most / v_quant v)) as [A B]. set (n := Qfloor _) in *.
    destruct (Z.ltb_spec n 0) as [L|L]; [discriminate|]. inversion H; subst all rest. split; [|exists []; reflexivity].
    rewrite qsum_repeat', Z2Nat.id by lia.
    assert (X : v_quant v * (most / v_quant v) == most) by (field; lra).
    apply (Qmult_le_l _ _ _ P) in A. apply (Qmult_lt_l _ _ _ P) in B.
    split; [rewrite <- X; exact A|]. split; [apply Forall_repeat; lra|]. split; [apply Forall_repeat; reflexivity|].
    rewrite <- X at 1. eapply Qlt_le_trans; [exact B|]. ring_simplify. lra.
  - destruct (get_fill_mass _ _ _ _) as [[r l]|] eqn:G; [|discriminate]. inversion H; subst r l; clear H.
    assert (L := a_package_legal _ Hp).
    destruct (fills_within_limits _ _ _ _ _ _ L He Hm Hs G) as [F1 [_ [F0 [F2 F3]]]].
    split.
    + split; [auto|]. split; [auto|]. split; [auto|]. split; [auto|]. intros Ep Hd. rewrite Ep in G. exact (unpackaged_fill _ _ _ _ _ He Hm Hd G).
    + unfold get_fill_mass in G. destruct (Qltb _ _); [inversion G; exists []; reflexivity|].
      destruct (obind _ _) as [n0|]; [|discriminate]. destruct (exceeds_split_limits n0); [discriminate|].
      destruct (_ || _)%bool.
      * destruct (choose_fill _ _); inversion G; exists []; reflexivity.
      * destruct (_ || _)%bool; [|inversion G; exists []; reflexivity].
        destruct (sample_loop _ _ _ _ _) as [[[pk rm] rs]|] eqn:SL; [|discriminate]. inversion G; subst rs.
        destruct L as [L0 _]. eapply sample_loop_spec in SL as [drawn [_ [-> _]]]; eauto. lra.
Qed.

Lemma ship_spec t all l : v_ship t all = Ok l -> shipped t all l.
Proof.
  unfold v_ship, shipped. destruct (shippable _ _) as [n|] eqn:Hn; [|discriminate]. intros H. exists n. split; auto.
  destruct (Z.leb_spec 0 n); cbn [andb] in H.
  - right. split; auto. destruct (Z.ltb_spec n (Z.of_nat (length all))); injection H as <-; auto.
    rewrite firstn_all2 by lia. auto.
  - left. split; [lia|]. inversion H. auto.
Qed.
