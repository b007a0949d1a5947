(** Proofs for C46. *)
From Verif Require Import Base EnrichModel EnrichSpec.
From Coq Require Import Reals Lra.
Local Open Scope R_scope.

Lemma fdiv_some x y : y <> 0 -> fdiv x y = Some (x / y).
Proof. intros H. unfold fdiv. destruct (Req_EM_T y 0); [contradiction|reflexivity]. Qed.

Lemma quantities q a : a_feed a <> a_tails a ->
  feed_qty q a = Some (q * ((a_product a - a_tails a) / (a_feed a - a_tails a))) /\
  tails_qty q a = Some (q * ((a_product a - a_feed a) / (a_feed a - a_tails a))).
Proof. intros H. unfold feed_qty, tails_qty. rewrite !fdiv_some by (now apply Rminus_eq_contra). auto. Qed.

Lemma balance : forall q a, a_feed a <> a_tails a ->
  exists f t, feed_qty q a = Some f /\ tails_qty q a = Some t /\
    f = q + t /\ a_feed a * f = a_product a * q + a_tails a * t.
Proof.
  intros q a H. destruct (quantities q a H) as [F T]. do 2 eexists. split; [exact F|]. split; [exact T|].
  split; field; now apply Rminus_eq_contra.
Qed.
Lemma no_balance : forall q a, a_feed a = a_tails a -> feed_qty q a = None /\ tails_qty q a = None.
Proof.
  intros q a H. unfold feed_qty, tails_qty, fdiv. destruct (Req_EM_T (a_feed a - a_tails a) 0) as [E|E]; [auto|exfalso; apply E; lra].
Qed.
Lemma amounts : forall q a f t, feed_qty q a = Some f -> tails_qty q a = Some t ->
  0 <= q -> a_tails a < a_feed a -> a_feed a <= a_product a -> 0 <= t /\ q <= f.
Proof.
  intros q a f t F T Q L1 L2. destruct (quantities q a ltac:(lra)) as [F' T']. rewrite F' in F. rewrite T' in T. injection F as <-. injection T as <-.
  assert (0 <= (a_product a - a_feed a) / (a_feed a - a_tails a)) as P by (apply Rmult_le_pos; [lra|left; apply Rinv_0_lt_compat; lra]).
  split; [now apply Rmult_le_pos|].
  replace ((a_product a - a_tails a) / (a_feed a - a_tails a)) with (1 + (a_product a - a_feed a) / (a_feed a - a_tails a)) by (field; lra).
  rewrite Rmult_plus_distr_l, Rmult_1_r. pose proof (Rmult_le_pos _ _ Q P). lra.
Qed.

(** ** The value function *)
Lemma ln_le_1 y : 0 < y -> ln y <= y - 1.
Proof.
  intros H. destruct (Req_dec (ln y) 0) as [E|E].
  - rewrite E. assert (y = 1) as ->; [|lra]. apply ln_inv; [assumption|lra|]. now rewrite ln_1.
  - pose proof (exp_ineq1 (ln y) E) as X. rewrite exp_ln in X by assumption. lra.
Qed.
Lemma ln_lt_1 y : 0 < y -> y <> 1 -> ln y < y - 1.
Proof.
  intros H N. assert (ln y <> 0) as E by (intros E; apply N; apply ln_inv; [assumption|lra|]; now rewrite ln_1).
  pose proof (exp_ineq1 (ln y) E) as X. rewrite exp_ln in X by assumption. lra.
Qed.
Lemma ln_div x y : 0 < x -> 0 < y -> ln (x / y) = ln x - ln y.
Proof. intros H K. unfold Rdiv. rewrite ln_mult, ln_Rinv; [ring|assumption|assumption|now apply Rinv_0_lt_compat]. Qed.
(** a * ln (a / b), for positive a and b. *)
Definition rel (a b : R) : R := a * (ln a - ln b).
(** The tangent inequality that gives the log-sum inequality. *)
Lemma rel_tangent a b A B : 0 < a -> 0 < b -> 0 < A -> 0 < B -> a * (ln A - ln B) + a - b * (A / B) <= rel a b.
Proof.
  intros H1 H2 H3 H4. assert (ln (b * A / (a * B)) <= b * A / (a * B) - 1) as L.
  { apply ln_le_1. apply Rdiv_lt_0_compat; apply Rmult_lt_0_compat; assumption. }
  rewrite ln_div in L by (apply Rmult_lt_0_compat; assumption). rewrite !ln_mult in L by assumption.
  apply (Rmult_le_compat_l a) in L; [|lra]. unfold rel.
  replace (a * (b * A / (a * B) - 1)) with (b * (A / B) - a) in L by (field; lra). lra.
Qed.
Lemma log_sum a1 b1 a2 b2 : 0 < a1 -> 0 < b1 -> 0 < a2 -> 0 < b2 -> rel (a1 + a2) (b1 + b2) <= rel a1 b1 + rel a2 b2.
Proof.
  intros H1 H2 H3 H4. pose proof (rel_tangent a1 b1 (a1 + a2) (b1 + b2)) as T1. pose proof (rel_tangent a2 b2 (a1 + a2) (b1 + b2)) as T2.
  specialize (T1 ltac:(lra) ltac:(lra) ltac:(lra) ltac:(lra)). specialize (T2 ltac:(lra) ltac:(lra) ltac:(lra) ltac:(lra)).
  unfold rel at 1. assert (b1 * ((a1 + a2) / (b1 + b2)) + b2 * ((a1 + a2) / (b1 + b2)) = a1 + a2) as E by (field; lra). lra.
Qed.
Lemma rel_tangent_lt a b A B : 0 < a -> 0 < b -> 0 < A -> 0 < B -> b * A <> a * B -> a * (ln A - ln B) + a - b * (A / B) < rel a b.
Proof.
  intros H1 H2 H3 H4 N. assert (ln (b * A / (a * B)) < b * A / (a * B) - 1) as L.
  { apply ln_lt_1; [apply Rdiv_lt_0_compat; apply Rmult_lt_0_compat; assumption|].
    intros X. apply N. apply (Rmult_eq_compat_r (a * B)) in X. unfold Rdiv in X. rewrite Rmult_assoc, Rinv_l, Rmult_1_l, Rmult_1_r in X; [assumption|].
    apply Rmult_integral_contrapositive_currified; lra. }
  rewrite ln_div in L by (apply Rmult_lt_0_compat; assumption). rewrite !ln_mult in L by assumption.
  apply (Rmult_lt_compat_l a) in L; [|lra]. unfold rel.
  replace (a * (b * A / (a * B) - 1)) with (b * (A / B) - a) in L by (field; lra). lra.
Qed.
Lemma log_sum_lt a1 b1 a2 b2 : 0 < a1 -> 0 < b1 -> 0 < a2 -> 0 < b2 -> b1 * a2 <> a1 * b2 -> rel (a1 + a2) (b1 + b2) < rel a1 b1 + rel a2 b2.
Proof.
  intros H1 H2 H3 H4 N. pose proof (rel_tangent_lt a1 b1 (a1 + a2) (b1 + b2)) as T1. pose proof (rel_tangent a2 b2 (a1 + a2) (b1 + b2)) as T2.
  specialize (T1 ltac:(lra) ltac:(lra) ltac:(lra) ltac:(lra) ltac:(nra)). specialize (T2 ltac:(lra) ltac:(lra) ltac:(lra) ltac:(lra)).
  unfold rel at 1. assert (b1 * ((a1 + a2) / (b1 + b2)) + b2 * ((a1 + a2) / (b1 + b2)) = a1 + a2) as E by (field; lra). lra.
Qed.

(** The value function in that form: k V(x) with k a positive amount. *)
Definition V (x : R) : R := (1 - 2 * x) * ln (1 / x - 1).
Lemma V_ln x : 0 < x < 1 -> V x = (1 - 2 * x) * (ln (1 - x) - ln x).
Proof. intros H. unfold V. replace (1 / x - 1) with ((1 - x) / x) by (field; lra). rewrite ln_div by lra. reflexivity. Qed.
Lemma V_rel k x : 0 < k -> 0 < x < 1 -> k * V x = rel (k * (1 - x)) (k * x) + rel (k * x) (k * (1 - x)).
Proof. intros K H. rewrite V_ln by assumption. unfold rel. rewrite !ln_mult by lra. ring. Qed.
Lemma value_ok x : 0 < x < 1 -> value_func x = Ok (Some (V x)).
Proof.
  intros H. unfold value_func. destruct (Rlt_dec x 0); [lra|]. destruct (Rge_dec x 1); [lra|]. rewrite fdiv_some by lra. reflexivity.
Qed.
Lemma V_nonneg x : 0 < x < 1 -> 0 <= V x.
Proof.
  intros H. rewrite V_ln by assumption. destruct (Rle_dec x (1 / 2)).
  - apply Rmult_le_pos; [lra|]. assert (ln x <= ln (1 - x)); [|lra].
    destruct (Req_dec x (1 - x)) as [E|E]; [rewrite <- E; lra|]. left. apply ln_increasing; lra.
  - replace ((1 - 2 * x) * (ln (1 - x) - ln x)) with ((2 * x - 1) * (ln x - ln (1 - x))) by ring.
    apply Rmult_le_pos; [lra|]. assert (ln (1 - x) < ln x) by (apply ln_increasing; lra). lra.
Qed.
Lemma V_sym x : 0 < x < 1 -> V (1 - x) = V x.
Proof. intros H. rewrite !V_ln by lra. replace (1 - (1 - x)) with x by ring. ring. Qed.

Lemma value_domain : forall x,
  (x < 0 \/ 1 <= x -> value_func x = Throw ValueError) /\
  (x = 0 -> value_func x = Ok None) /\
  (0 < x < 1 -> exists v, value_func x = Ok (Some v) /\ 0 <= v /\ v = (1 - 2 * x) * (ln (1 - x) - ln x) /\ value_func (1 - x) = Ok (Some v)).
Proof.
  intros x. repeat split.
  - intros H. unfold value_func. destruct (Rlt_dec x 0); [reflexivity|]. destruct (Rge_dec x 1); [reflexivity|lra].
  - intros ->. unfold value_func, fdiv. destruct (Rlt_dec 0 0); [lra|]. destruct (Rge_dec 0 1); [lra|]. destruct (Req_EM_T 0 0) as [E|E]; [reflexivity|now contradiction E].
  - intros H. exists (V x). split; [now apply value_ok|]. split; [now apply V_nonneg|]. split; [now apply V_ln|]. rewrite value_ok by lra. now rewrite V_sym.
Qed.

Lemma rel_scale k x y : 0 < k -> 0 < x -> 0 < y -> rel (k * x) (k * y) = k * rel x y.
Proof. intros. unfold rel. rewrite !ln_mult by assumption. ring. Qed.
(** Jensen's inequality for the value function, in the form needed. *)
Lemma V_mix p t P T : 0 < p < 1 -> 0 < t < 1 -> 0 < P -> 0 < T ->
  (P + T) * V ((P * p + T * t) / (P + T)) <= P * V p + T * V t.
Proof.
  intros Hp Ht HP HT. set (f := (P * p + T * t) / (P + T)).
  assert ((P + T) * f = P * p + T * t) as F by (unfold f; field; lra).
  assert (0 < P * p /\ 0 < T * t /\ 0 < P * (1 - p) /\ 0 < T * (1 - t)) as [X1 [X2 [X3 X4]]] by (repeat split; apply Rmult_lt_0_compat; lra).
  assert (0 < f < 1) as Hf by (split; nra).
  rewrite !V_rel by lra. pose proof (log_sum (P * (1 - p)) (P * p) (T * (1 - t)) (T * t) X3 X1 X4 X2) as L1.
  pose proof (log_sum (P * p) (P * (1 - p)) (T * t) (T * (1 - t)) X1 X3 X2 X4) as L2.
  replace (P * (1 - p) + T * (1 - t)) with ((P + T) * (1 - f)) in * by lra. rewrite <- F in *. lra.
Qed.
Lemma V_mix_lt p t P T : 0 < p < 1 -> 0 < t < 1 -> t < p -> 0 < P -> 0 < T ->
  (P + T) * V ((P * p + T * t) / (P + T)) < P * V p + T * V t.
Proof.
  intros Hp Ht L HP HT. set (f := (P * p + T * t) / (P + T)).
  assert ((P + T) * f = P * p + T * t) as F by (unfold f; field; lra).
  assert (0 < P * p /\ 0 < T * t /\ 0 < P * (1 - p) /\ 0 < T * (1 - t)) as [X1 [X2 [X3 X4]]] by (repeat split; apply Rmult_lt_0_compat; lra).
  assert (0 < f < 1) as Hf by (split; nra).
  assert (P * p * (T * (1 - t)) <> P * (1 - p) * (T * t)) as NE.
  { intros E. assert (P * T * (p - t) = 0) as Z by lra. assert (0 < P * T * (p - t)) by (repeat apply Rmult_lt_0_compat; lra). lra. }
  rewrite !V_rel by lra. pose proof (log_sum_lt (P * (1 - p)) (P * p) (T * (1 - t)) (T * t) X3 X1 X4 X2 NE) as L1.
  pose proof (log_sum (P * p) (P * (1 - p)) (T * t) (T * (1 - t)) X1 X3 X2 X4) as L2.
  replace (P * (1 - p) + T * (1 - t)) with ((P + T) * (1 - f)) in * by lra. rewrite <- F in *. lra.
Qed.

Lemma swu_value q a : 0 < a_tails a < 1 -> 0 < a_feed a < 1 -> 0 < a_product a < 1 -> a_tails a <> a_feed a ->
  exists f t, feed_qty q a = Some f /\ tails_qty q a = Some t /\ f = q + t /\ a_feed a * f = a_product a * q + a_tails a * t /\
  swu_required q a = Ok (Some (q * V (a_product a) + t * V (a_tails a) - f * V (a_feed a))).
Proof.
  intros HT HF HP N. destruct (balance q a (not_eq_sym N)) as [f [t [F [T [B1 B2]]]]]. exists f, t. repeat (split; [assumption|]).
  unfold swu_required. rewrite F, T, !value_ok by assumption. reflexivity.
Qed.
Lemma swu_nonneg : forall q a, 0 <= q -> 0 < a_tails a -> a_tails a < a_feed a -> a_feed a <= a_product a -> a_product a < 1 ->
  exists s, swu_required q a = Ok (Some s) /\ 0 <= s /\ (0 < q -> a_feed a < a_product a -> 0 < s) /\
    (a_feed a = a_product a -> s = 0).
Proof.
  intros q a Q H1 H2 H3 H4. destruct (swu_value q a) as [f [t [F [T [B1 [B2 S]]]]]]; try lra.
  eexists. split; [exact S|]. destruct (amounts q a f t F T Q H2 H3) as [T0 F0].
  assert (a_feed a = a_product a -> q * V (a_product a) + t * V (a_tails a) - f * V (a_feed a) = 0) as EQ.
  { intros E. assert (t = 0) as ->.
    { rewrite (proj2 (quantities q a ltac:(lra))) in T. injection T as <-. rewrite E. field. lra. }
    rewrite B1, E. ring. }
  assert (0 < q -> a_feed a < a_product a -> 0 < q * V (a_product a) + t * V (a_tails a) - f * V (a_feed a)) as ST.
  { intros Q1 L. assert (0 < t) as T1.
    { rewrite (proj2 (quantities q a ltac:(lra))) in T. injection T as <-. apply Rmult_lt_0_compat; [assumption|].
      apply Rdiv_lt_0_compat; lra. }
    pose proof (V_mix_lt (a_product a) (a_tails a) q t ltac:(lra) ltac:(lra) ltac:(lra) Q1 T1) as M.
    replace ((q * a_product a + t * a_tails a) / (q + t)) with (a_feed a) in M by (rewrite B1 in B2; apply (Rmult_eq_reg_r (q + t)); [field_simplify; lra|lra]).
    rewrite B1. lra. }
  split; [|auto].
  destruct (Req_dec (a_feed a) (a_product a)) as [E|E]; [rewrite EQ by assumption; lra|].
  destruct (Req_dec q 0) as [Z|Z]; [|left; apply ST; lra].
  assert (t = 0) as ->. { rewrite (proj2 (quantities q a ltac:(lra))) in T. injection T as <-. rewrite Z. ring. }
  rewrite B1, Z. lra.
Qed.
Lemma swu_scales : forall k q a s, swu_required q a = Ok (Some s) -> swu_required (k * q) a = Ok (Some (k * s)).
Proof.
  intros k q a s. unfold swu_required. destruct (value_func (a_product a)) as [[vp|]| |]; destruct (value_func (a_tails a)) as [[vt|]| |];
    destruct (value_func (a_feed a)) as [[vf|]| |]; unfold feed_qty, tails_qty, fdiv; destruct (Req_EM_T (a_feed a - a_tails a) 0); intros H; try discriminate.
  injection H as <-. do 2 f_equal. field. assumption.
Qed.

(** ** In the words of EnrichSpec *)
Lemma e_balance : forall q a, a_feed a <> a_tails a ->
  exists f t, feed_qty q a = Some f /\ tails_qty q a = Some t /\ separates a f q t /\
    (forall f' t', separates a f' q t' -> f' = f /\ t' = t).
Proof.
  intros q a H. destruct (balance q a H) as [f [t [F [T [B1 B2]]]]]. exists f, t. split; [exact F|]. split; [exact T|]. split; [split; assumption|].
  intros f' t' [C1 C2]. assert ((a_feed a - a_tails a) * (t' - t) = 0) as E by (subst f f'; lra).
  apply Rmult_integral in E. destruct E as [E|E]; [exfalso; apply H; lra|]. split; lra.
Qed.
Lemma e_amounts : forall q a f t, feed_qty q a = Some f -> tails_qty q a = Some t -> 0 <= q -> enriches a ->
  0 <= t <= f /\ q <= f.
Proof.
  intros q a f t F T Q [H1 [H2 [H3 H4]]]. destruct (amounts q a f t F T Q H2 H3) as [A B].
  destruct (balance q a ltac:(lra)) as [f' [t' [F' [T' [B1 _]]]]]. rewrite F in F'. rewrite T in T'. injection F' as <-. injection T' as <-. lra.
Qed.
Lemma V_value x : 0 < x < 1 -> V x = value x.
Proof. exact (V_ln x). Qed.
Lemma e_value : forall x,
  (value_func x = Throw ValueError <-> x < 0 \/ 1 <= x) /\
  (0 < x < 1 -> value_func x = Ok (Some (value x)) /\ 0 <= value x /\ value (1 - x) = value x).
Proof.
  intros x. split; [split|].
  - unfold value_func. destruct (Rlt_dec x 0); [auto|]. destruct (Rge_dec x 1); [intros _; right; lra|]. destruct (fdiv 1 x); discriminate.
  - intros H. now apply value_domain.
  - intros H. rewrite <- !V_value by lra. split; [now apply value_ok|]. split; [now apply V_nonneg|now apply V_sym].
Qed.
Lemma e_zero : value_func 0 = Ok None /\
  (forall q f p, 0 < f < 1 -> 0 < p < 1 -> swu_required q (mkAssays f p 0) = Ok None).
Proof.
  assert (value_func 0 = Ok None) as Z by now apply value_domain. split; [exact Z|]. intros q f p F P. unfold swu_required. cbn [a_product a_tails a_feed].
  rewrite Z, !value_ok by assumption. destruct (feed_qty q _); [|reflexivity]. now destruct (tails_qty q _).
Qed.
Lemma e_swu : forall q a f t, 0 < a_tails a < 1 -> 0 < a_feed a < 1 -> 0 < a_product a < 1 ->
  a_feed a <> a_tails a -> separates a f q t ->
  swu_required q a = Ok (Some (q * value (a_product a) + t * value (a_tails a) - f * value (a_feed a))).
Proof.
  intros q a f t H1 H2 H3 N B. destruct (e_balance q a N) as [f' [t' [_ [_ [_ U]]]]]. destruct (U _ _ B) as [-> ->].
  destruct (swu_value q a) as [f'' [t'' [F [T [B1 [B2 E]]]]]]; try assumption; [now apply not_eq_sym|].
  destruct (U f'' t'' (conj B1 B2)) as [-> ->]. rewrite E, !V_value by assumption. reflexivity.
Qed.
Lemma e_swu_nonneg : forall q a, 0 <= q -> enriches a ->
  exists s, swu_required q a = Ok (Some s) /\ 0 <= s /\ (s = 0 <-> q = 0 \/ a_product a = a_feed a) /\
    (forall k, swu_required (k * q) a = Ok (Some (k * s))).
Proof.
  intros q a Q [H1 [H2 [H3 H4]]]. destruct (swu_nonneg q a Q H1 H2 H3 H4) as [s [E [P [ST Z]]]]. exists s.
  split; [exact E|]. split; [exact P|]. split; [split|].
  - intros ->. destruct (Req_dec q 0) as [|N]; [now left|right]. destruct (Req_dec (a_product a) (a_feed a)) as [|M]; [assumption|].
    exfalso. assert (0 < 0); [apply ST|]; lra.
  - intros [->|X]; [|apply Z; now symmetry]. pose proof (swu_scales 0 _ _ _ E) as E'. rewrite Rmult_0_l, E in E'. injection E' as ->. ring.
  - intros k. now apply swu_scales.
Qed.
