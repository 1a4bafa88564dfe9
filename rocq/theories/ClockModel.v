(** SimulatorTimer (opm/core/simulator/SimulatorTimer.cpp) and StopWatch
    (opm/core/utility/StopWatch.cpp). *)
From Verif Require Import Base.

(** ** SimulatorTimer *)
Section timer.
(** Times are an arbitrary type with an addition: no law is assumed, so what is
    proved holds for floating point sums in the order the code adds them. *)
Context {T : Type} (zero : T) (add : T → T → T).
(** SimulatorTimer.hpp:88-93, without start_date_. *)
Record timer := Timer { tm_steps : list T; tm_step : Z; tm_time : T; tm_total : T }.
(** A call: its result, an exception (THROW or a failed ASSERT), or [None] for
    undefined behaviour. *)
Inductive tres (A : Type) := TOk (a : A) | TThrow.
(** std::accumulate(begin, end, 0.0). *)
Definition accumulate (l : list T) : T := foldl add zero l.
(** The constructor, SimulatorTimer.cpp:32-37; total_time_ is not initialised. *)
Definition tm_new (junk : T) : timer := Timer [] 0 zero junk.
(** init(param), SimulatorTimer.cpp:42-50, with the parameters already converted;
    [scale n d] is num_psteps*stepsize. *)
Definition tm_init_param (scale : nat → T → T) (num_psteps : nat) (stepsize : T) (t : timer) : timer :=
  Timer (replicate num_psteps stepsize) (tm_step t) (tm_time t) (scale num_psteps stepsize).
(** init(deck), SimulatorTimer.cpp:53-58, given the TSTEP field. *)
Definition tm_init_deck (tstep : list T) (t : timer) : timer := Timer tstep (tm_step t) (tm_time t) (accumulate tstep).
(** setCurrentStepNum, SimulatorTimer.cpp:73-82: the test looks at the current
    step; [begin() + step] outside the vector is undefined. *)
Definition tm_set (step : Z) (t : timer) : option (tres timer) :=
  if decide (tm_step t < 0 ∨ Z.of_nat (length (tm_steps t)) < tm_step t)%Z then Some (TThrow _) else
  if decide (0 ≤ step ≤ Z.of_nat (length (tm_steps t)))%Z
  then Some (TOk _ (Timer (tm_steps t) step (accumulate (take (Z.to_nat step) (tm_steps t))) (tm_total t))) else None.
(** done, SimulatorTimer.cpp:141-144. *)
Definition tm_done (t : timer) : bool := bool_decide (Z.of_nat (length (tm_steps t)) = tm_step t).
(** currentStepLength, SimulatorTimer.cpp:86-90. *)
Definition tm_length (t : timer) : option (tres T) :=
  if tm_done t then Some (TThrow _) else
  if decide (0 ≤ tm_step t)%Z then d ← tm_steps t !! Z.to_nat (tm_step t); Some (TOk _ d) else None.
(** operator++, SimulatorTimer.cpp:132-138. *)
Definition tm_inc (t : timer) : option (tres timer) :=
  if tm_done t then Some (TThrow _) else
  if decide (0 ≤ tm_step t)%Z then
    d ← tm_steps t !! Z.to_nat (tm_step t);
    Some (TOk _ (Timer (tm_steps t) (tm_step t + 1) (add (tm_time t) d) (tm_total t)))
  else None.
End timer.
Arguments timer : clear implicits.
Arguments TOk {A}. Arguments TThrow {A}.

(** ** StopWatch *)
(** Clock readings are in microseconds; the division by 1000000.0 at the end of
    secsSinceLast and secsSinceStart is left out. *)
Inductive watch_state := UnStarted | Running | Stopped.
Record watch := Watch { w_state : watch_state; w_start : Z; w_last : Z; w_stop : Z }.
(** start, StopWatch.cpp:54-59. *)
Definition sw_start (now : Z) (w : watch) : watch := Watch Running now now (w_stop w).
(** stop, StopWatch.cpp:61-68; [None] is an exception. *)
Definition sw_stop (now : Z) (w : watch) : option watch :=
  match w_state w with Running => Some (Watch Stopped (w_start w) (w_last w) now) | _ => None end.
(** secsSinceLast, StopWatch.cpp:70-84. *)
Definition sw_since_last (now : Z) (w : watch) : option (Z * watch) :=
  match w_state w with
  | Running => Some ((now - w_last w)%Z, Watch (w_state w) (w_start w) now (w_stop w))
  | Stopped => Some ((w_stop w - w_last w)%Z, Watch (w_state w) (w_start w) (w_stop w) (w_stop w))
  | UnStarted => None
  end.
(** secsSinceStart, StopWatch.cpp:86-99. *)
Definition sw_since_start (now : Z) (w : watch) : option Z :=
  match w_state w with Running => Some (now - w_start w)%Z | Stopped => Some (w_stop w - w_start w)%Z | UnStarted => None end.
