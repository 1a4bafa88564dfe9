(** Model of opm/core/utility/RootFinders.hpp.  double is modelled by [R] (no
    rounding); the functor is any function [f : R → R]. *)
From Coq Require Import Reals.
From Verif Require Import Base.
Local Open Scope R_scope.

(** How solve ends: a normal return, or one of the two handlers of the error
    policy with its arguments. *)
Inductive rf_result :=
  | Root (x : R)
  | BracketingFailure (x0 x1 f0 f1 : R)
  | TooManyIterations (x0 x1 : R) (maxiter : Z).

(** The error policies, RootFinders.hpp:49-97: [None] is an exception.
    WarnAndContinueOnError returns the same values as ContinueOnError. *)
Definition throw_on_error (r : rf_result) : option R :=
  match r with Root x => Some x | _ => None end.
Definition continue_on_error (r : rf_result) : option R :=
  match r with
  | Root x => Some x
  | BracketingFailure x0 x1 f0 f1 => Some (if Rlt_dec (Rabs f0) (Rabs f1) then x0 else x1)
  | TooManyIterations x0 x1 _ => Some (1/2 * (x0 + x1))
  end.

(** regulaFalsiStep, RootFinders.hpp:282-290; [None] is the failed ASSERT. *)
Definition regula_falsi_step (a b fa fb : R) : option R :=
  if Rlt_dec (fa * fb) 0 then Some ((b * fa - a * fb) / (fa - fb)) else None.

(** numeric_limits<double>::epsilon(). *)
Definition macheps : R := / 2 ^ 52.

Section solve.
  Context (f : R → R) (max_iter : Z).

  (** What is observed of a run: the result, the final value of
      iterations_used, the brackets (x0, x1) at the head of the loop and the
      points where the functor was evaluated, in order. *)
  Definition rf_run : Type := rf_result * Z * list (R * R) * list R.
  Definition add_eval (x : R) (r : rf_run) : rf_run := let '(r, i, hs, es) := r in (r, i, hs, x :: es).
  Definition add_head (h : R * R) (r : rf_run) : rf_run := let '(r, i, hs, es) := r in (r, i, h :: hs, es).

  (** The while loop, RootFinders.hpp:140-180 (and 237-277). *)
  Fixpoint rf_loop (fuel : nat) (eps epsF x0 x1 f0 f1 : R) (iterations_used : Z) : option rf_run :=
    match fuel with
    | 0%nat => None
    | S fuel =>
        add_head (x0, x1) <$>
        if Rge_dec (Rabs (x1 - x0)) (/ 1000000000 * eps) then
          xnew ← regula_falsi_step x0 x1 f0 f1;
          let fnew := f xnew in
          add_eval xnew <$>
          let iterations_used := (iterations_used + 1)%Z in
          if decide (iterations_used > max_iter)%Z
          then Some (TooManyIterations x0 x1 max_iter, iterations_used, [], [])
          else if Rlt_dec (Rabs fnew) epsF then Some (Root xnew, iterations_used, [], [])
          else if bool_decide ((if Rgt_dec fnew 0 then true else false) = (if Rgt_dec f0 0 then true else false))
          then rf_loop fuel eps epsF x1 xnew f1 fnew iterations_used
          else let gamma := f1 / (f1 + fnew) in
               rf_loop fuel eps epsF x0 xnew (f0 * gamma) fnew iterations_used
        else Some (Root (1/2 * (x0 + x1)), iterations_used, [], [])
    end.

  (** solve without an initial guess, RootFinders.hpp:112-181;
      [iterations_used] is the value the caller passes in by reference. *)
  Definition rf_solve (fuel : nat) (a b tolerance : R) (iterations_used : Z) : option rf_run :=
    let eps := tolerance + macheps * Rmax (Rmax (Rabs a) (Rabs b)) 1 in
    let x0 := a in
    let x1 := b in
    let f0 := f x0 in
    add_eval x0 <$>
    let epsF := tolerance + macheps * Rmax (Rabs f0) 1 in
    if Rlt_dec (Rabs f0) epsF then Some (Root x0, iterations_used, [], []) else
    let f1 := f x1 in
    add_eval x1 <$>
    if Rlt_dec (Rabs f1) epsF then Some (Root x1, iterations_used, [], []) else
    if Rgt_dec (f0 * f1) 0 then Some (BracketingFailure a b f0 f1, iterations_used, [], []) else
    rf_loop fuel eps epsF x0 x1 f0 f1 0.

  (** solve with an initial guess from the choice of the half interval on,
      RootFinders.hpp:224-278. *)
  Definition rf_guess_rest (fuel : nat) (eps epsF initial_guess f_initial a b : R) (iterations_used : Z) (f0 f1 : R) : option rf_run :=
    let '(x0, x1, f0, f1) :=
      if Rlt_dec (f0 * f_initial) 0 then (a, initial_guess, f0, f_initial)
      else (initial_guess, b, f_initial, f1) in
    if Rgt_dec (f0 * f1) 0 then Some (BracketingFailure a b f0 f1, iterations_used, [], []) else
    rf_loop fuel eps epsF x0 x1 f0 f1 0.

  (** solve with an initial guess, RootFinders.hpp:191-278. *)
  Definition rf_solve_guess (fuel : nat) (initial_guess a b tolerance : R) (iterations_used : Z) : option rf_run :=
    let eps := tolerance + macheps * Rmax (Rmax (Rabs a) (Rabs b)) 1 in
    let f_initial := f initial_guess in
    add_eval initial_guess <$>
    let epsF := tolerance + macheps * Rmax (Rabs f_initial) 1 in
    if Rlt_dec (Rabs f_initial) epsF then Some (Root initial_guess, iterations_used, [], []) else
    let x0 := a in
    let x1 := b in
    let rest1 := rf_guess_rest fuel eps epsF initial_guess f_initial a b iterations_used in
    let rest0 (f0 : R) :=
      if Req_EM_T x1 initial_guess then rest1 f0 f_initial else
      let f1 := f x1 in
      add_eval x1 <$>
      if Rlt_dec (Rabs f1) epsF then Some (Root x1, iterations_used, [], []) else rest1 f0 f1 in
    if Req_EM_T x0 initial_guess then rest0 f_initial else
    let f0 := f x0 in
    add_eval x0 <$>
    if Rlt_dec (Rabs f0) epsF then Some (Root x0, iterations_used, [], []) else rest0 f0.

  (** The loop of bracketZero, RootFinders.hpp:309-316; [n] iterations left.
      Returns i and cur_dx after a break, [None] if i reached max_iters. *)
  Fixpoint bz_loop (n : nat) (x0 f0 : R) (i : nat) (cur_dx : R) : option (nat * R) :=
    match n with
    | 0%nat => None
    | S n =>
        let x := x0 + cur_dx in
        let f_new := f x in
        if Rle_dec (f0 * f_new) 0 then Some (i, cur_dx) else bz_loop n x0 f0 (S i) (-2 * cur_dx)
    end.

  (** bracketZero, RootFinders.hpp:299-327; [None] is the exception. *)
  Definition bracket_zero (x0 dx : R) : option (R * R) :=
    let f0 := f x0 in
    '(i, cur_dx) ← bz_loop 100 x0 f0 0 dx;
    if Rlt_dec cur_dx 0
    then Some (x0 + cur_dx, if decide (i < 2)%nat then x0 else x0 + 1/4 * cur_dx)
    else Some (if decide (i < 2)%nat then x0 else x0 + 1/4 * cur_dx, x0 + cur_dx).
End solve.
