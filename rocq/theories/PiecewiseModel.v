(** * PiecewiseModel: src/toolkit/symbolic_functions.cc and symbolic_function_factories.cc.

    doubles are Coq's real numbers.  A component may be any function object; it is represented by the values it
    returns, so components that change after they are added (a piecewise function still being extended, or the
    function under construction itself) are not modelled. *)
From Coq Require Import Reals List String.
From Verif Require Import Base.
Import ListNotations.
Local Open Scope R_scope.

Definition sym := R -> R.

(** symbolic_functions.cc 12-14, LinearFunction::value. *)
Definition linear_fn (slope intercept : R) : sym := fun x => slope * x + intercept.
(** 24-26, ExponentialFunction::value. *)
Definition exponential_fn (constant exponent intercept : R) : sym := fun x => constant * exp (exponent * x) + intercept.

(** symbolic_functions.h 84-94, PiecewiseFunctionInfo. *)
Record piece := mkPiece { p_fun : sym; p_xoffset : R; p_yoffset : R }.

(** symbolic_functions.cc 42-46: the loop runs to the first piece starting after x, then goes back one; [prev] is the
    piece the iterator has just passed. *)
Fixpoint seek (x : R) (prev : piece) (l : list piece) : piece :=
  match l with
  | [] => prev
  | f :: r => if Rge_dec x (p_xoffset f) then seek x f r else prev
  end.

(** 37-50, PiecewiseFunction::value.  In the second branch the first piece is passed by the loop because x is not
    before its start. *)
Definition pw_value (functions : list piece) : sym := fun x =>
  match functions with
  | [] => 0
  | front :: rest =>
      if Rlt_dec x (p_xoffset front) then 0
      else let f := seek x front rest in p_fun f (x - p_xoffset f) + p_yoffset f
  end.

(** symbolic_function_factories.cc 59-78, PiecewiseFunctionFactory::AddFunction. *)
Definition last_piece (l : list piece) : option piece := hd_error (rev l).
Definition add_function (functions : list piece) (function : sym) (starting_coord : R) (continuous : bool) :
    result unit * list piece :=
  let refuse := match last_piece functions with
                | Some last => if Rle_dec starting_coord (p_xoffset last) then true else false
                | None => false end in
  if refuse then (Throw PlainError, functions)
  else
    let yoffset := if continuous then pw_value functions starting_coord - function 0 else 0 in
    (Ok tt, functions ++ [mkPiece function starting_coord yoffset]).

(** 47-56, PiecewiseFunctionFactory::GetFunctionPtr: the function itself, not a copy. *)
Definition get_function (functions : list piece) (params : string) : result sym :=
  if String.eqb params EmptyString then Ok (pw_value functions) else Throw PlainError.

(** A use of the factory from its constructor (44-46) on: calls of AddFunction in order; a refused one leaves the
    factory usable. *)
Record call := mkCall { c_fun : sym; c_start : R; c_continuous : bool }.
Definition add_calls (l : list call) : list piece :=
  fold_left (fun fs c => snd (add_function fs (c_fun c) (c_start c) (c_continuous c))) l [].
