From Verif Require Import Base PackageModel PackageProofs.
From Coq Require Import ZifyBool.
Open Scope Q_scope.

(** *** When GetFillMass cannot fail *)
Lemma split_ok n : (0 <= n <= split_limit)%Z -> exceeds_split_limits n = false.
Proof.
  intros H. unfold exceeds_split_limits.
  destruct (Z.ltb_spec split_limit n); [lia|]. cbn [orb].
  destruct (Qltb_spec (inject_Z n) ((9#10) * inject_Z INT_MIN)) as [C|C]; auto.
  assert (inject_Z 0 <= inject_Z n) by (rewrite <- Zle_Qle; lia). change (inject_Z 0) with 0 in *.
  assert ((9#10) * inject_Z INT_MIN < 0) by reflexivity. lra.
Qed.

Lemma split_limit_val : split_limit = 214748364%Z.
Proof. reflexivity. Qed.

Lemma floor_lt_limit x (k : Z) : 0 <= x -> x < inject_Z k -> (0 <= Qfloor x < k)%Z.
Proof.
  intros H1 H2. pose proof (Qfloor_bounds x) as [A B]. split; [now apply floor_nonneg|].
  apply inject_lt. lra.
Qed.

Lemma to_int_small x : 0 <= x -> x < inject_Z INT_MAX -> to_int x = Some (Qfloor x).
Proof.
  intros H1 H2. unfold to_int, qtrunc. destruct (Qltb_spec x 0); [lra|].
  pose proof (floor_lt_limit x INT_MAX H1 H2).
  destruct (Z.leb_spec INT_MIN (Qfloor x)), (Z.leb_spec (Qfloor x) INT_MAX); simpl; auto;
    unfold INT_MIN, INT_MAX in *; lia.
Qed.

Lemma fill_tail_total eps fmin pk qty :
  (Z.of_nat (length pk) < split_limit)%Z -> exists fills, fill_tail eps fmin pk qty = Ok fills.
Proof.
  intros H. unfold fill_tail.
  destruct (Qleb _ _); rewrite split_ok; eauto; rewrite ?app_length; cbn [length]; lia.
Qed.

Lemma fill_fixed_total eps fmin qty fm : 0 < qty -> 0 < fm ->
  qty / fm < inject_Z split_limit ->
  exists fills, fill_fixed eps fmin qty fm = Ok fills.
Proof.
  intros Hq Hf Hl. unfold fill_fixed.
  assert (P : 0 < qmin qty fm) by (unfold qmin; qcase; lra).
  assert (L : qty / qmin qty fm < inject_Z split_limit).
  { unfold qmin. qcase; auto. setoid_replace (qty / qty) with 1 by (field; lra).
    rewrite split_limit_val. reflexivity. }
  assert (G : 0 <= qty / qmin qty fm) by (apply Qle_shift_div_l; lra).
  pose proof (floor_lt_limit _ _ G L) as F.
  unfold qdiv. destruct (Qeqb_spec (qmin qty fm) 0); [lra|]. cbn [obind].
  rewrite to_int_inject by (rewrite split_limit_val in F; unfold INT_MIN, INT_MAX; lia).
  rewrite split_ok by lia.
  destruct (Z.ltb_spec (Qfloor (qty / qmin qty fm)) 0); [lia|].
  apply fill_tail_total. rewrite repeat_length, Z2Nat.id; lia.
Qed.

Lemma first_total eps p samples qty :
  legal_package p -> 0 < qty -> p_strategy p = "first"%string ->
  qty < inject_Z split_limit * p_fill_max p ->
  exists fills, get_fill_mass eps p samples qty = Some (Ok fills, samples).
Proof.
  intros [L0 [L1 _]] Hq Hs Hlim. unfold get_fill_mass.
  destruct (Qltb _ _); [eauto|].
  assert (SL : 0 < inject_Z split_limit) by (rewrite split_limit_val; reflexivity).
  assert (Hmax : 0 < p_fill_max p).
  { destruct (Qlt_le_dec 0 (p_fill_max p)); auto. nra. }
  assert (D : qty / p_fill_max p < inject_Z split_limit) by (apply Qlt_shift_div_r; lra).
  assert (G : 0 <= qty / p_fill_max p) by (apply Qle_shift_div_l; lra).
  unfold qdiv at 1. destruct (Qeqb_spec (p_fill_max p) 0); [lra|]. cbn [obind].
  rewrite to_int_small; auto.
  2:{ apply Qlt_trans with (inject_Z split_limit); auto. }
  pose proof (floor_lt_limit _ _ G D). rewrite split_ok by lia.
  assert (E1 : (String.eqb (p_strategy p) "first" || String.eqb (p_strategy p) "equal")%bool = true)
    by (rewrite Hs; reflexivity).
  assert (E2 : choose_fill p qty = Some (p_fill_max p)) by (unfold choose_fill; rewrite Hs; reflexivity).
  rewrite E1, E2.
  destruct (fill_fixed_total eps (p_fill_min p) qty (p_fill_max p)) as [f ->]; eauto.
Qed.

Lemma ceil_le_of x (k : Z) : x <= inject_Z k -> (Qceiling x <= k)%Z.
Proof.
  intros H. pose proof (Qceiling_bounds x) as [A _].
  assert (Qceiling x < k + 1)%Z; [|lia]. apply inject_lt. rewrite inject_Z_plus.
  change (inject_Z 1) with 1. lra.
Qed.

Lemma equal_total eps p samples qty :
  legal_package p -> 0 < qty -> p_strategy p = "equal"%string -> 0 < p_fill_min p ->
  qty < inject_Z split_limit * p_fill_min p ->
  exists fills, get_fill_mass eps p samples qty = Some (Ok fills, samples).
Proof.
  intros [L0 [L1 _]] Hq Hs Hmin Hlim. unfold get_fill_mass.
  destruct (Qltb _ _); [eauto|].
  assert (SL : 0 < inject_Z split_limit) by (rewrite split_limit_val; reflexivity).
  assert (Hmax : 0 < p_fill_max p) by lra.
  assert (Dmin : qty / p_fill_min p < inject_Z split_limit) by (apply Qlt_shift_div_r; lra).
  assert (D : qty / p_fill_max p < inject_Z split_limit) by (apply Qlt_shift_div_r; nra).
  assert (G : 0 <= qty / p_fill_max p) by (apply Qle_shift_div_l; lra).
  assert (Gmin : 0 <= qty / p_fill_min p) by (apply Qle_shift_div_l; lra).
  assert (SI : (split_limit < INT_MAX)%Z) by reflexivity.
  unfold qdiv at 1. destruct (Qeqb_spec (p_fill_max p) 0); [lra|]. cbn [obind].
  rewrite to_int_small; auto.
  2:{ apply Qlt_trans with (inject_Z split_limit); auto. }
  pose proof (floor_lt_limit _ _ G D). rewrite split_ok by lia.
  pose proof (floor_lt_limit _ _ Gmin Dmin) as Fmin.
  assert (C : (Qceiling (qty / p_fill_max p) <= split_limit)%Z) by (apply ceil_le_of; lra).
  assert (Cp : (1 <= Qceiling (qty / p_fill_max p))%Z) by (apply ceil_pos, Qlt_shift_div_l; lra).
  assert (Cf : exists fm, choose_fill p qty = Some fm /\ 0 < fm /\ qty / fm < inject_Z split_limit).
  { unfold choose_fill. rewrite Hs. change (String.eqb "equal" "first") with false. cbv iota.
    unfold qdiv. destruct (Qeqb_spec (p_fill_min p) 0); [lra|].
    destruct (Qeqb_spec (p_fill_max p) 0); [lra|]. cbn [obind].
    rewrite !to_int_inject by (unfold INT_MIN in *; lia). cbn [obind].
    destruct (Z.leb_spec (Qceiling (qty / p_fill_max p)) (Qfloor (qty / p_fill_min p))) as [Hle|Hgt].
    - assert (Cq : 1 <= inject_Z (Qceiling (qty / p_fill_max p))) by (apply inject_le in Cp; exact Cp).
      destruct (Qeqb_spec (inject_Z (Qceiling (qty / p_fill_max p))) 0); [lra|].
      eexists; split; [reflexivity|]. split; [apply Qlt_shift_div_l; lra|].
      setoid_replace (qty / (qty / inject_Z (Qceiling (qty / p_fill_max p))))
        with (inject_Z (Qceiling (qty / p_fill_max p))) by (field; lra).
      rewrite <- Zlt_Qlt. lia.
    - eexists; split; [reflexivity|]. auto. }
  destruct Cf as [fm [Ec [Hfm Hfl]]].
  assert (E1 : (String.eqb (p_strategy p) "first" || String.eqb (p_strategy p) "equal")%bool = true)
    by (rewrite Hs; reflexivity).
  rewrite E1, Ec.
  destruct (fill_fixed_total eps (p_fill_min p) qty fm) as [f ->]; eauto.
Qed.

Lemma random_total eps p samples qty :
  legal_package p -> 0 < eps -> 0 < qty ->
  p_strategy p = "uniform"%string \/ p_strategy p = "normal"%string -> 0 < p_fill_min p ->
  qty < inject_Z split_limit * p_fill_min p ->
  Forall (fun s => p_fill_min p <= s <= p_fill_max p) samples ->
  qty <= inject_Z (Z.of_nat (length samples)) * p_fill_min p ->
  exists fills rest, get_fill_mass eps p samples qty = Some (Ok fills, rest).
Proof.
  intros [L0 [L1 _]] He Hq Hs Hmin Hlim Hsam Hlen. unfold get_fill_mass.
  destruct (Qltb _ _); [eauto|].
  assert (SL : 0 < inject_Z split_limit) by (rewrite split_limit_val; reflexivity).
  assert (Hmax : 0 < p_fill_max p) by lra.
  assert (D : qty / p_fill_max p < inject_Z split_limit) by (apply Qlt_shift_div_r; nra).
  assert (G : 0 <= qty / p_fill_max p) by (apply Qle_shift_div_l; lra).
  unfold qdiv at 1. destruct (Qeqb_spec (p_fill_max p) 0); [lra|]. cbn [obind].
  rewrite to_int_small; auto.
  2:{ apply Qlt_trans with (inject_Z split_limit); auto. }
  pose proof (floor_lt_limit _ _ G D). rewrite split_ok by lia.
  assert (E1 : (String.eqb (p_strategy p) "first" || String.eqb (p_strategy p) "equal")%bool = false)
    by (destruct Hs as [-> | ->]; reflexivity).
  assert (E2 : (String.eqb (p_strategy p) "uniform" || String.eqb (p_strategy p) "normal")%bool = true)
    by (destruct Hs as [-> | ->]; reflexivity).
  rewrite E1, E2.
  destruct (sample_loop_terminates eps (p_fill_min p) (p_fill_max p) samples qty []) as [[[out remain] rest] E];
    auto.
  { eapply Forall_impl; [|exact Hsam]. simpl; tauto. }
  rewrite E. apply (sample_loop_spec eps (p_fill_min p) (p_fill_max p)) in E; auto; [|lra].
  destruct E as [drawn [-> [-> [X1 [X2 [X3 X4]]]]]]. cbn [app].
  destruct (fill_tail_total eps (p_fill_min p) drawn remain) as [f ->]; [|eauto].
  apply inject_lt.
  assert (S : inject_Z (Z.of_nat (length drawn)) * p_fill_min p <= qsum drawn).
  { clear -X4. induction drawn as [|d t IH]; cbn [length qsum].
    - change (inject_Z (Z.of_nat 0)) with 0. lra.
    - inversion X4 as [|? ? [Y1 Y2] X5]; subst. rewrite Nat2Z.inj_succ, <- Z.add_1_l, inject_Z_plus.
      change (inject_Z 1) with 1. specialize (IH X5). lra. }
  nra.
Qed.

(** *** Inputs on which GetFillMass is undefined *)
Lemma equal_zero_min_UB eps n fmax samples qty : 0 < eps -> 0 < fmax -> 0 < qty ->
  qty < inject_Z split_limit * fmax ->
  get_fill_mass eps (mkPackage n 0 fmax "equal") samples qty = Some (UB, samples).
Proof.
  intros He Hm Hq Hlim. unfold get_fill_mass. cbn [p_fill_min p_fill_max p_strategy].
  destruct (Qltb_spec (qty - 0) (- eps)); [lra|].
  assert (D : qty / fmax < inject_Z split_limit) by (apply Qlt_shift_div_r; lra).
  assert (G : 0 <= qty / fmax) by (apply Qle_shift_div_l; lra).
  unfold qdiv at 1. destruct (Qeqb_spec fmax 0); [lra|]. cbn [obind].
  rewrite to_int_small; auto.
  2:{ apply Qlt_trans with (inject_Z split_limit); auto. reflexivity. }
  pose proof (floor_lt_limit _ _ G D). rewrite split_ok by lia.
  reflexivity.
Qed.

Lemma first_zero_qty_UB eps n fmin fmax samples : 0 < eps -> 0 <= fmin -> fmin <= eps -> 0 < fmax ->
  get_fill_mass eps (mkPackage n fmin fmax "first") samples 0 = Some (UB, samples).
Proof.
  intros He Hf Hm Hx. unfold get_fill_mass. cbn [p_fill_min p_fill_max p_strategy].
  destruct (Qltb_spec (0 - fmin) (- eps)); [lra|].
  unfold qdiv at 1. destruct (Qeqb_spec fmax 0); [lra|]. cbn [obind].
  rewrite to_int_small.
  2:{ unfold Qdiv. lra. } 2:{ setoid_replace (0 / fmax) with 0 by (field; lra). reflexivity. }
  assert (F : Qfloor (0 / fmax) = 0%Z).
  { setoid_replace (0 / fmax) with 0 by (field; lra). reflexivity. }
  rewrite F, split_ok by (rewrite split_limit_val; lia).
  unfold choose_fill. cbn [p_strategy]. change (String.eqb "first" "first") with true. cbn [orb].
  unfold fill_fixed, qmin. cbn [p_fill_max]. destruct (Qltb_spec fmax 0); [lra|]. reflexivity.
Qed.

(** *** Transport units *)
Open Scope Z_scope.
Fixpoint zsum (l : list Z) : Z := match l with [] => 0 | x :: t => x + zsum t end.

Definition tu_legal (t : transport_unit) : Prop :=
  0 <= tu_fill_min t <= tu_fill_max t /\
  (tu_strategy t = "first"%string \/ tu_strategy t = "equal"%string \/ tu_strategy t = "hybrid"%string).

Lemma tu_create_legal e n a b s t : tu_create e n a b s = Ok t ->
  tu_legal t /\ tu_name t = n /\ tu_fill_min t = a /\ tu_fill_max t = b /\ tu_strategy t = s.
Proof.
  unfold tu_create, tu_legal.
  destruct (Z.ltb_spec a 0), (Z.ltb_spec b 0); cbn [orb]; try discriminate.
  destruct (Z.ltb_spec b a); [discriminate|].
  destruct (_ && _)%bool; [discriminate|].
  destruct (String.eqb_spec s "first"), (String.eqb_spec s "equal"), (String.eqb_spec s "hybrid");
    cbn; try discriminate; intros E; injection E as <-; simpl; repeat split; auto; lia.
Qed.

Lemma int_ok_arith z : INT_MIN <= z <= INT_MAX -> int_arith z = Some z.
Proof.
  intros H. unfold int_arith, int_ok.
  destruct (Z.leb_spec INT_MIN z), (Z.leb_spec z INT_MAX); simpl; auto; lia.
Qed.

Lemma int_div_pos a b : 0 <= a -> 0 < b -> int_div a b = Some (a / b).
Proof.
  intros Ha Hb. unfold int_div. destruct (Z.eqb_spec b 0); [lia|].
  destruct (Z.eqb_spec a INT_MIN); [unfold INT_MIN in *; lia|]. cbn [andb].
  rewrite Z.quot_div_nonneg; auto.
Qed.

(** Value of GetTransportUnitFill for "equal" and "hybrid" within int range. *)
Lemma tu_fill_val t n : 1 <= tu_fill_min t <= tu_fill_max t ->
  tu_strategy t = "equal"%string \/ tu_strategy t = "hybrid"%string ->
  tu_fill_min t <= n -> n + tu_fill_max t <= INT_MAX ->
  let m := (n + tu_fill_max t - 1) / tu_fill_max t in
  tu_fill t n = Some (if m <=? n / tu_fill_min t then n / m else tu_fill_max t).
Proof.
  intros [H1 H2] Hs Hn Ho m. unfold tu_fill.
  destruct (Z.ltb_spec n (tu_fill_min t)); [lia|].
  replace (String.eqb (tu_strategy t) "first") with false by (destruct Hs as [-> | ->]; reflexivity).
  replace (String.eqb (tu_strategy t) "equal" || String.eqb (tu_strategy t) "hybrid")%bool with true
    by (destruct Hs as [-> | ->]; reflexivity).
  rewrite int_div_pos by lia.
  rewrite int_ok_arith by (unfold INT_MIN; lia). cbn [obind].
  rewrite int_ok_arith by (unfold INT_MIN; lia). cbn [obind].
  rewrite int_div_pos by lia. fold m.
  assert (Hm : 1 <= m). { unfold m. apply Z.div_le_lower_bound; lia. }
  destruct (Z.leb_spec m (n / tu_fill_min t)); auto.
  unfold qdiv. destruct (Qeqb_spec (inject_Z m) 0) as [E|E].
  { exfalso. unfold Qeq, inject_Z in E. simpl in E. lia. }
  cbn [obind]. rewrite <- Zdiv_Qdiv.
  assert (0 <= n / m <= n).
  { split; [apply Z.div_pos; lia|]. apply Z.div_le_upper_bound; nia. }
  rewrite to_int_inject by (unfold INT_MIN; lia). reflexivity.
Qed.

(** Greatest amount that legal loads can carry out of [n] packages. *)
Definition best (t : transport_unit) (n : Z) : Z :=
  Z.min n ((n / tu_fill_min t) * tu_fill_max t).

Lemma ceil_spec n f : 0 < f -> let m := (n + f - 1) / f in (m - 1) * f < n <= m * f.
Proof.
  intros Hf m. unfold m.
  pose proof (Z.div_mod (n + f - 1) f ltac:(lia)). pose proof (Z.mod_pos_bound (n + f - 1) f ltac:(lia)).
  nia.
Qed.

Lemma best_step t n : 1 <= tu_fill_min t <= tu_fill_max t ->
  tu_fill_min t <= n ->
  let m := (n + tu_fill_max t - 1) / tu_fill_max t in
  let f := if m <=? n / tu_fill_min t then n / m else tu_fill_max t in
  tu_fill_min t <= f <= tu_fill_max t /\ f <= n /\ best t n = f + best t (n - f).
Proof.
  intros [H1 H2] Hn m f. set (a := tu_fill_min t) in *. set (b := tu_fill_max t) in *.
  pose proof (ceil_spec n b ltac:(lia)) as Hc. fold m in Hc. cbv zeta in Hc. fold m in Hc.
  assert (Hm : 1 <= m). { unfold m. apply Z.div_le_lower_bound; lia. }
  pose proof (Z.div_mod n a ltac:(lia)) as Dn. pose proof (Z.mod_pos_bound n a ltac:(lia)) as Mn.
  set (k := n / a) in *. unfold best. fold a b k.
  unfold f. destruct (Z.leb_spec m k) as [L|L].
  - pose proof (Z.div_mod n m ltac:(lia)) as Df. pose proof (Z.mod_pos_bound n m ltac:(lia)) as Mf.
    set (g := n / m) in *.
    assert (A1 : a <= g). { unfold g. apply Z.div_le_lower_bound; nia. }
    assert (A2 : g <= b). { unfold g. apply Z.div_le_upper_bound; nia. }
    assert (A3 : g <= n) by nia.
    repeat split; auto.
    assert (B1 : n - g <= (m - 1) * b) by nia.
    assert (B2 : (m - 1) * a <= n - g) by nia.
    assert (B3 : m - 1 <= (n - g) / a) by (apply Z.div_le_lower_bound; lia).
    rewrite !Z.min_l; nia.
  - assert (A0 : k * b < n) by nia.
    assert (K1 : 1 <= k). { unfold k. apply Z.div_le_lower_bound; lia. }
    assert (K' : (n - b) / a = k - 1).
    { symmetry. apply (Z.div_unique _ _ _ (n - b - (k - 1) * a)); nia. }
    rewrite K'. repeat split; try lia; try nia.
Qed.

Lemma best_small t n : 1 <= tu_fill_min t -> 0 <= n < tu_fill_min t -> best t n = 0.
Proof. intros. unfold best. rewrite Z.div_small by lia. lia. Qed.

Definition legal_loads (t : transport_unit) (loads : list Z) : Prop :=
  Forall (fun l => tu_fill_min t <= l <= tu_fill_max t) loads.

Lemma tu_hybrid_correct t : 1 <= tu_fill_min t <= tu_fill_max t ->
  tu_strategy t = "hybrid"%string ->
  forall fuel n s, 0 <= n < Z.of_nat fuel -> 0 <= s -> s + n + tu_fill_max t <= INT_MAX ->
  tu_hybrid fuel t n s = Some (Some (s + best t n)) /\
  exists loads, legal_loads t loads /\ zsum loads = best t n.
Proof.
  intros Ht Hs. induction fuel as [|fuel IH]; intros n s Hn H0 Ho; [lia|].
  cbn [tu_hybrid]. destruct (Z.ltb_spec 0 n), (Z.leb_spec (tu_fill_min t) n); cbn [andb].
  - rewrite tu_fill_val by (auto; lia).
    pose proof (best_step t n Ht ltac:(lia)) as [F1 [F2 F3]]. cbv zeta in *.
    set (f := if _ <=? _ then _ else _) in *.
    rewrite int_ok_arith by (unfold INT_MIN; lia).
    rewrite int_ok_arith by (unfold INT_MIN; lia).
    destruct (IH (n - f) (s + f)) as [E [loads [L1 L2]]]; try lia.
    split; [rewrite E; do 2 f_equal; lia|].
    exists (f :: loads). split; [constructor; auto|]. simpl. lia.
  - rewrite (best_small t n) by lia. split; [do 2 f_equal; lia|]. exists []. split; [constructor|auto].
  - rewrite (best_small t n) by lia. split; [do 2 f_equal; lia|]. exists []. split; [constructor|auto].
  - rewrite (best_small t n) by lia. split; [do 2 f_equal; lia|]. exists []. split; [constructor|auto].
Qed.

Lemma loads_bound t loads : 1 <= tu_fill_min t -> legal_loads t loads ->
  zsum loads <= Z.of_nat (length loads) * tu_fill_max t /\
  Z.of_nat (length loads) * tu_fill_min t <= zsum loads.
Proof.
  intros H L. induction L as [|x l [Hx1 Hx2] L IH]; cbn [zsum length]; [lia|]. nia.
Qed.

Lemma best_optimal t n loads : 1 <= tu_fill_min t <= tu_fill_max t -> 0 <= n ->
  legal_loads t loads -> zsum loads <= n -> zsum loads <= best t n.
Proof.
  intros Ht Hn L Hs. pose proof (loads_bound t loads ltac:(lia) L) as [B1 B2].
  unfold best. apply Z.min_glb; auto.
  assert (Z.of_nat (length loads) <= n / tu_fill_min t) by (apply Z.div_le_lower_bound; lia).
  nia.
Qed.

Lemma zsum_repeat x n : zsum (repeat x n) = Z.of_nat n * x.
Proof. induction n; cbn [repeat zsum]; lia. Qed.

Lemma max_shippable_correct t n : tu_legal t -> 1 <= tu_fill_min t -> 0 <= n ->
  n + tu_fill_max t <= INT_MAX -> tu_name t <> unrestricted_name ->
  exists s, max_shippable (S (Z.to_nat n)) t n = Some (Some s) /\ 0 <= s <= n /\
    exists loads, legal_loads t loads /\ zsum loads = s.
Proof.
  intros [[L1 L2] L3] Hmin Hn Ho Hname. unfold max_shippable.
  destruct (Z.eqb_spec n 0), (Z.ltb_spec n (tu_fill_min t)); cbn [orb];
    try (exists 0; split; [reflexivity|]; split; [lia|]; exists []; split; [constructor|reflexivity]).
  destruct (String.eqb_spec (tu_name t) unrestricted_name); [congruence|].
  assert (Hfin : forall f, 1 <= f -> f <= n -> tu_fill_min t <= f <= tu_fill_max t ->
     exists s, match obind (int_div n f) (fun d => int_arith (d * f)) with
               | None => Some None | Some s => Some (Some (Z.min n s)) end = Some (Some s) /\
       0 <= s <= n /\ exists loads, legal_loads t loads /\ zsum loads = s).
  { intros f F1 F2 F3. rewrite int_div_pos by lia. cbn [obind].
    pose proof (Z.div_mod n f ltac:(lia)). pose proof (Z.mod_pos_bound n f ltac:(lia)).
    assert (0 <= n / f) by (apply Z.div_pos; lia).
    rewrite int_ok_arith by (unfold INT_MIN; nia).
    exists (n / f * f). rewrite Z.min_r by nia. split; [reflexivity|]. split; [nia|].
    exists (repeat f (Z.to_nat (n / f))). split; [apply Forall_repeat; auto|].
    rewrite zsum_repeat, Z2Nat.id; lia. }
  destruct L3 as [S|[S|S]].
  - rewrite S. change (String.eqb "first" "first") with true. cbn [orb].
    assert (E : tu_fill t n = Some (tu_fill_max t)).
    { unfold tu_fill. rewrite S. destruct (Z.ltb_spec n (tu_fill_min t)); [lia|]. reflexivity. }
    rewrite E. destruct (Z.eqb_spec (tu_fill_max t) 0); [lia|].
    destruct (Z_le_gt_dec (tu_fill_max t) n).
    + apply Hfin; lia.
    + rewrite int_div_pos by lia. rewrite Z.div_small by lia. cbn [obind].
      rewrite int_ok_arith by (unfold INT_MIN, INT_MAX; lia).
      exists 0. rewrite Z.min_r by lia. split; [reflexivity|]. split; [lia|]. exists []. split; [constructor|auto].
  - rewrite S. change (String.eqb "equal" "first" || String.eqb "equal" "equal")%bool with true. cbv iota.
    rewrite tu_fill_val by (auto; lia). pose proof (best_step t n ltac:(lia) ltac:(lia)) as [F1 [F2 _]].
    cbv zeta in *. set (f := if _ <=? _ then _ else _) in *.
    destruct (Z.eqb_spec f 0); [lia|]. apply Hfin; lia.
  - rewrite S. change (String.eqb "hybrid" "first" || String.eqb "hybrid" "equal")%bool with false.
    change (String.eqb "hybrid" "hybrid") with true. cbv iota.
    destruct (tu_hybrid_correct t ltac:(lia) S (Datatypes.S (Z.to_nat n)) n 0) as [E [loads [A B]]]; try lia.
    exists (best t n). rewrite E. split; [reflexivity|]. split; [|eauto]. split.
    + rewrite <- B. clear -A L1. induction A; simpl; lia.
    + unfold best. lia.
Qed.

Lemma hybrid_optimal t n : tu_legal t -> 1 <= tu_fill_min t -> 0 <= n ->
  n + tu_fill_max t <= INT_MAX -> tu_name t <> unrestricted_name ->
  tu_strategy t = "hybrid"%string ->
  exists s, max_shippable (S (Z.to_nat n)) t n = Some (Some s) /\
    forall loads, legal_loads t loads -> zsum loads <= n -> zsum loads <= s.
Proof.
  intros [[L1 L2] L3] Hmin Hn Ho Hname Hs. exists (best t n). split.
  2:{ intros loads L H. apply best_optimal; auto. }
  unfold max_shippable. rewrite Hs.
  destruct (Z.eqb_spec n 0), (Z.ltb_spec n (tu_fill_min t)); cbn [orb];
    try (rewrite best_small by lia; reflexivity).
  destruct (String.eqb_spec (tu_name t) unrestricted_name); [congruence|].
  change (String.eqb "hybrid" "first" || String.eqb "hybrid" "equal")%bool with false.
  change (String.eqb "hybrid" "hybrid") with true. cbv iota.
  destruct (tu_hybrid_correct t ltac:(lia) Hs (S (Z.to_nat n)) n 0) as [E _]; try lia.
  rewrite E. reflexivity.
Qed.

Lemma unrestricted_ships_all fuel n : 0 <= n -> max_shippable fuel tu_unrestricted n = Some (Some n).
Proof.
  intros H. unfold max_shippable. cbn [tu_fill_min tu_unrestricted tu_name].
  destruct (Z.eqb_spec n 0), (Z.ltb_spec n 0); cbn [orb]; subst; auto; try lia.
Qed.

(** A transport unit with the default [fill_min] divides by zero. *)
Lemma zero_min_UB fuel name fmax n s : 1 <= n -> n + fmax <= INT_MAX -> 0 <= fmax ->
  name <> unrestricted_name -> s = "equal"%string \/ s = "hybrid"%string ->
  max_shippable (S fuel) (mkTU name 0 fmax s) n = Some None.
Proof.
  intros Hn Ho Hf Hname Hs. unfold max_shippable. cbn [tu_fill_min tu_name tu_strategy].
  destruct (Z.eqb_spec n 0); [lia|]. destruct (Z.ltb_spec n 0); [lia|]. cbn [orb].
  destruct (String.eqb_spec name unrestricted_name); [congruence|].
  assert (E : tu_fill (mkTU name 0 fmax s) n = None).
  { unfold tu_fill. cbn [tu_fill_min tu_fill_max tu_strategy].
    destruct (Z.ltb_spec n 0); [lia|]. destruct Hs as [-> | ->]; reflexivity. }
  destruct Hs as [-> | ->]; cbn [String.eqb orb].
  - change (String.eqb "equal" "first" || String.eqb "equal" "equal")%bool with true.
    cbv iota. now rewrite E.
  - change (String.eqb "hybrid" "first" || String.eqb "hybrid" "equal")%bool with false.
    change (String.eqb "hybrid" "hybrid") with true. cbv iota. cbn [tu_hybrid tu_fill_min].
    destruct (Z.ltb_spec 0 n); [|lia]. destruct (Z.leb_spec 0 n); [|lia]. cbn [andb]. now rewrite E.
Qed.

(** A transport unit with the default [fill_max] = INT_MAX overflows from 2 packages on. *)
Lemma default_max_UB fuel name fmin n s : 1 <= fmin <= n -> 2 <= n <= INT_MAX ->
  name <> unrestricted_name -> s = "equal"%string \/ s = "hybrid"%string ->
  max_shippable (S fuel) (mkTU name fmin INT_MAX s) n = Some None.
Proof.
  intros Hm Hn Hname Hs. unfold max_shippable. cbn [tu_fill_min tu_name tu_strategy].
  destruct (Z.eqb_spec n 0); [lia|]. destruct (Z.ltb_spec n fmin); [lia|]. cbn [orb].
  destruct (String.eqb_spec name unrestricted_name); [congruence|].
  assert (E : tu_fill (mkTU name fmin INT_MAX s) n = None).
  { unfold tu_fill. cbn [tu_fill_min tu_fill_max tu_strategy].
    destruct (Z.ltb_spec n fmin); [lia|].
    assert (A : int_arith (n + INT_MAX) = None).
    { unfold int_arith, int_ok.
      destruct (Z.leb_spec INT_MIN (n + INT_MAX)), (Z.leb_spec (n + INT_MAX) INT_MAX);
        cbn [andb]; auto. lia. }
    rewrite A. rewrite int_div_pos by lia. destruct Hs as [-> | ->]; reflexivity. }
  destruct Hs as [-> | ->]; cbn [String.eqb orb].
  - change (String.eqb "equal" "first" || String.eqb "equal" "equal")%bool with true.
    cbv iota. now rewrite E.
  - change (String.eqb "hybrid" "first" || String.eqb "hybrid" "equal")%bool with false.
    change (String.eqb "hybrid" "hybrid") with true. cbv iota. cbn [tu_hybrid tu_fill_min].
    destruct (Z.ltb_spec 0 n); [|lia]. destruct (Z.leb_spec fmin n); [|lia]. cbn [andb]. now rewrite E.
Qed.

(** *** Packaged for the property file *)
Open Scope Q_scope.
Lemma C13_fills_lemma e name fmin fmax strategy p eps samples qty fills rest :
  pkg_create e name fmin fmax strategy = Ok p ->
  0 < eps -> 0 < qty ->
  Forall (fun s => fmin <= s <= fmax) samples ->
  get_fill_mass eps p samples qty = Some (Ok fills, rest) ->
  Forall (fun f => fmin - eps <= f <= fmax) fills /\
  (fmin <= qty -> Forall (fun f => fmin <= f) fills) /\
  qsum fills <= qty /\
  qty - qsum fills < qmax eps fmin.
Proof.
  intros H He Hq Hs Hg. apply pkg_create_legal in H as [L [_ [E1 [E2 _]]]]. subst fmin fmax.
  pose proof (fills_within_limits _ _ _ _ _ _ L He Hq Hs Hg). tauto.
Qed.
Lemma C13_empty_lemma e name fmin fmax strategy p eps samples qty rest :
  pkg_create e name fmin fmax strategy = Ok p -> 0 < eps -> 0 < qty ->
  Forall (fun s => fmin <= s <= fmax) samples ->
  get_fill_mass eps p samples qty = Some (Ok [], rest) -> qty < qmax eps fmin.
Proof.
  intros H He Hq Hs Hg. apply pkg_create_legal in H as [L [_ [E1 [E2 _]]]]. subst fmin fmax.
  eapply fills_empty; eauto.
Qed.
Lemma C13_equal_lemma e name fmin fmax p eps samples qty fills rest :
  pkg_create e name fmin fmax "equal" = Ok p -> 0 < eps -> 0 < qty ->
  (Qceiling (qty / fmax) <= Qfloor (qty / fmin))%Z ->
  get_fill_mass eps p samples qty = Some (Ok fills, rest) ->
  qsum fills == qty /\
  exists f, fills = repeat f (Z.to_nat (Qceiling (qty / fmax))) /\
            f == qty / inject_Z (Qceiling (qty / fmax)).
Proof.
  intros H He Hq Hc Hg. apply pkg_create_legal in H as [L [_ [E1 [E2 E3]]]]. subst fmin fmax.
  destruct (equal_strategy_exact _ _ _ _ _ _ L He Hq E3 Hc Hg) as [f [A [B C]]]. split; eauto.
Qed.
Lemma C13_no_failure_lemma e name fmin fmax strategy p eps samples qty :
  pkg_create e name fmin fmax strategy = Ok p -> 0 < eps -> 0 < qty ->
  (strategy = "first"%string /\ qty < inject_Z split_limit * fmax \/
   strategy <> "first"%string /\ 0 < fmin /\ qty < inject_Z split_limit * fmin /\
   Forall (fun s => fmin <= s <= fmax) samples /\
   qty <= inject_Z (Z.of_nat (length samples)) * fmin) ->
  exists fills rest, get_fill_mass eps p samples qty = Some (Ok fills, rest).
Proof.
  intros H He Hq Hc. apply pkg_create_legal in H as [L [_ [E1 [E2 E3]]]]. subst fmin fmax strategy.
  destruct Hc as [[S Hl]|[S [Hm [Hl [Hs Hlen]]]]].
  - destruct (first_total eps p samples qty L Hq S Hl) as [f E]. eauto.
  - assert (Hstr := L). destruct Hstr as [_ [_ V]]. unfold pkg_valid_strategy in V.
    destruct (String.eqb_spec (p_strategy p) "first"); [congruence|].
    destruct (String.eqb_spec (p_strategy p) "equal").
    + destruct (equal_total eps p samples qty L Hq e0 Hm Hl) as [f E]. eauto.
    + eapply random_total; eauto.
      destruct (String.eqb_spec (p_strategy p) "uniform"); auto.
      destruct (String.eqb_spec (p_strategy p) "normal"); auto. discriminate.
Qed.
Lemma C13_equal_UB_lemma eps name fmax samples qty :
  0 < eps -> 0 < fmax -> 0 < qty -> qty < inject_Z split_limit * fmax ->
  name <> unpackaged_name ->
  exists p, pkg_create true name 0 fmax "equal" = Ok p /\
    get_fill_mass eps p samples qty = Some (UB, samples).
Proof.
  intros. exists (mkPackage name 0 fmax "equal"). split; [|now apply equal_zero_min_UB].
  unfold pkg_create, pkg_ctor.
  destruct (Qltb_spec 0 0); [lra|]. destruct (Qltb_spec fmax 0); [lra|]. cbn [orb].
  destruct (String.eqb_spec name unpackaged_name); [congruence|]. reflexivity.
Qed.
Lemma C13_zero_lemma samples : get_fill_mass (1#1000000) pkg_unpackaged samples 0 = Some (UB, samples).
Proof. apply first_zero_qty_UB; compute; congruence. Qed.

Open Scope Z_scope.
Lemma C16_legal_lemma e name fmin fmax strategy t n :
  tu_create e name fmin fmax strategy = Ok t -> name <> unrestricted_name ->
  1 <= fmin -> 0 <= n -> n + fmax <= INT_MAX ->
  exists s, max_shippable (S (Z.to_nat n)) t n = Some (Some s) /\ 0 <= s <= n /\
    exists loads, Forall (fun l => fmin <= l <= fmax) loads /\ zsum loads = s.
Proof.
  intros H. apply tu_create_legal in H as [L [E0 [E1 [E2 E3]]]]. subst.
  intros. apply max_shippable_correct; auto.
Qed.
Lemma C16_optimal_lemma e name fmin fmax t n :
  tu_create e name fmin fmax "hybrid" = Ok t -> name <> unrestricted_name ->
  1 <= fmin -> 0 <= n -> n + fmax <= INT_MAX ->
  exists s, max_shippable (S (Z.to_nat n)) t n = Some (Some s) /\
    forall loads, Forall (fun l => fmin <= l <= fmax) loads -> zsum loads <= n -> zsum loads <= s.
Proof.
  intros H. apply tu_create_legal in H as [L [E0 [E1 [E2 E3]]]]. subst.
  intros. apply hybrid_optimal; auto.
Qed.
Lemma C16_first_lemma : exists t, tu_create true "cask" 3 10 "first" = Ok t /\
  max_shippable 6 t 5 = Some (Some 0).
Proof. eexists. repeat split. Qed.
Lemma C16_default_min_lemma fuel name fmax n s :
  1 <= n -> n + fmax <= INT_MAX -> 0 <= fmax -> name <> unrestricted_name ->
  s = "equal"%string \/ s = "hybrid"%string ->
  exists t, tu_create true name 0 fmax s = Ok t /\ max_shippable (S fuel) t n = Some None.
Proof.
  intros. exists (mkTU name 0 fmax s). split; [|apply zero_min_UB; auto].
  unfold tu_create. destruct (Z.ltb_spec 0 0), (Z.ltb_spec fmax 0); try lia. cbn [orb].
  destruct (String.eqb_spec name unrestricted_name); [congruence|]. cbn [andb].
  destruct H3 as [-> | ->]; reflexivity.
Qed.
Lemma C16_default_max_lemma fuel name fmin n s :
  1 <= fmin <= n -> 2 <= n <= INT_MAX -> name <> unrestricted_name ->
  s = "equal"%string \/ s = "hybrid"%string ->
  exists t, tu_create true name fmin INT_MAX s = Ok t /\ max_shippable (S fuel) t n = Some None.
Proof.
  intros. exists (mkTU name fmin INT_MAX s). split; [|apply default_max_UB; auto].
  unfold tu_create. destruct (Z.ltb_spec fmin 0); try lia. cbn [orb].
  change (INT_MAX <? 0) with false. cbv iota.
  destruct (Z.ltb_spec INT_MAX fmin); [lia|].
  destruct (String.eqb_spec name unrestricted_name); [congruence|]. cbn [andb].
  destruct H2 as [-> | ->]; reflexivity.
Qed.
