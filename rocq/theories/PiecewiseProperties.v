(** * PiecewiseProperties: C47, piecewise functions. *)
From Verif Require Import Base PiecewiseModel PiecewiseSpec PiecewiseProofs.
From Coq Require Import Reals Lra List String.
Import ListNotations.
Local Open Scope R_scope.

(** Whatever calls are made, the function is the curve of those that were in order. *)
Theorem C47_curve : forall calls, exists kept, in_order calls kept /\ forall x, pw_value (add_calls calls) x = curve kept x.
Proof. exact p_is_curve. Qed.
Print Assumptions C47_curve.

(** A call is refused exactly when it does not start after every piece so far, and a refused call changes nothing. *)
Theorem C47_refusal : forall calls kept, in_order calls kept -> forall f s b,
  (Forall (fun k => c_start k < s) kept ->
     exists fs', add_function (add_calls calls) f s b = (Ok tt, fs') /\ fs' = add_calls (calls ++ [mkCall f s b])) /\
  (~ Forall (fun k => c_start k < s) kept -> add_function (add_calls calls) f s b = (Throw PlainError, add_calls calls)).
Proof. exact p_refusal. Qed.
Print Assumptions C47_refusal.

(** Zero before the first start. *)
Theorem C47_before : forall calls kept x, in_order calls kept -> Forall (fun k => x < c_start k) kept ->
  pw_value (add_calls calls) x = 0.
Proof. exact p_before. Qed.
Print Assumptions C47_before.

(** Over the stretch where a component is in force the function has that component's shape, measured from its start. *)
Theorem C47_shape : forall calls kept c x y, in_order calls kept -> in_force kept c x -> in_force kept c y ->
  pw_value (add_calls calls) x - pw_value (add_calls calls) y = c_fun c (x - c_start c) - c_fun c (y - c_start c).
Proof. exact p_shape. Qed.
Print Assumptions C47_shape.

(** A component added without continuity starts at its own value. *)
Theorem C47_unshifted : forall calls kept c, in_order calls kept -> In c kept -> c_continuous c = false ->
  pw_value (add_calls calls) (c_start c) = c_fun c 0.
Proof. exact p_start. Qed.
Print Assumptions C47_unshifted.

(** With continuous components there is no jump anywhere but at the starts of components added without continuity. *)
Theorem C47_continuous : forall calls kept x, in_order calls kept -> Forall (fun c => continuity (c_fun c)) kept ->
  (forall c, In c kept -> c_start c = x -> c_continuous c = true) -> continuity_pt (pw_value (add_calls calls)) x.
Proof. exact p_continuous. Qed.
Print Assumptions C47_continuous.

Theorem C47_continuous_everywhere : forall calls kept, in_order calls kept ->
  Forall (fun c => continuity (c_fun c) /\ c_continuous c = true) kept -> continuity (pw_value (add_calls calls)).
Proof. exact p_everywhere. Qed.
Print Assumptions C47_continuous_everywhere.

(** The components the toolkit offers are continuous. *)
Theorem C47_basic_components : forall a b c, continuity (linear_fn a b) /\ continuity (exponential_fn a b c).
Proof. exact p_basic. Qed.
Print Assumptions C47_basic_components.

(** Adding a piece, accepted or not, never changes the function before the new start. *)
Theorem C47_past : forall calls f s b x, x < s ->
  pw_value (snd (add_function (add_calls calls) f s b)) x = pw_value (add_calls calls) x.
Proof. exact p_past. Qed.
Print Assumptions C47_past.

(** Three calls, the second refused. *)
Definition C47_calls : list call :=
  [mkCall (linear_fn 2 1) 1 false; mkCall (exponential_fn 1 1 0) 1 true; mkCall (exponential_fn 1 1 5) 3 true].
Example C47_ex_order : in_order C47_calls [mkCall (exponential_fn 1 1 5) 3 true; mkCall (linear_fn 2 1) 1 false].
Proof.
  unfold C47_calls. apply (io_keep [mkCall (linear_fn 2 1) 1 false; mkCall (exponential_fn 1 1 0) 1 true]).
  - apply (io_drop [mkCall (linear_fn 2 1) 1 false]).
    + apply (io_keep []); constructor.
    + intros H. inversion H; subst. cbn in *. lra.
  - repeat constructor; cbn; lra.
Qed.
Example C47_ex_value : pw_value (add_calls C47_calls) 3 = 5 /\ pw_value (add_calls C47_calls) 0 = 0 /\
  pw_value (add_calls C47_calls) 1 = 1 /\ continuity_pt (pw_value (add_calls C47_calls)) 3.
Proof.
  rewrite !(p_curve _ _ C47_ex_order). repeat split.
  - cbn. repeat (match goal with |- context [Rlt_dec ?a ?b] => destruct (Rlt_dec a b); try lra end).
    unfold exponential_fn, linear_fn. replace (3 - 3) with 0 by lra. lra.
  - apply (C47_before C47_calls _ 0 C47_ex_order) || (cbn; repeat (match goal with |- context [Rlt_dec ?a ?b] => destruct (Rlt_dec a b); try lra end)).
  - cbn. repeat (match goal with |- context [Rlt_dec ?a ?b] => destruct (Rlt_dec a b); try lra end). unfold linear_fn. lra.
  - apply (C47_continuous C47_calls _ 3 C47_ex_order).
    + repeat constructor; cbn; [apply (p_basic 1 1 5)|apply (p_basic 2 1 0)].
    + intros c [<-|[<-|[]]]; cbn; intros; [reflexivity|lra].
Qed.
