(** Model of opm/core/props/rock/RockCompressibility.cpp.  double is modelled
    by [R]; a division by zero or a read outside of a table is [None]. *)
From Coq Require Import Reals.
From Verif Require Import Base TableModel.
Local Open Scope R_scope.

(** Data members, RockCompressibility.hpp:57-60. *)
Record rock := Rock { rk_p : list R; rk_mult : list R; rk_pref : R; rk_comp : R }.

(** The constructor from parameters, RockCompressibility.cpp:31-37; [pref] and
    [comp] are the parameters, if given.  [barsa] is unit::barsa. *)
Definition rock_from_param (barsa : R) (pref comp : option R) : rock :=
  Rock [] [] (default 100 pref * barsa) (default 0 comp / barsa).

(** The copying loop, RockCompressibility.cpp:45-50. *)
Definition copy_rocktab (rt : list (list (list R))) : option (list R * list R) :=
  t ← rt !! 0%nat;
  c0 ← t !! 0%nat;
  let n := length c0 in
  p ← mapM (λ i, c0 !! i) (seq 0 n);
  m ← mapM (λ i, c ← t !! 1%nat; c !! i) (seq 0 n);
  Some (p, m).
(** The constructor from a deck, RockCompressibility.cpp:39-59; [rocktab] and
    [rck] are the fields of the deck, if present. *)
Definition rock_from_deck (rocktab : option (list (list (list R)))) (rck : option (list (list R))) : option rock :=
  match rocktab with
  | Some rt => '(p, m) ← copy_rocktab rt; Some (Rock p m 0 0)
  | None =>
    match rck with
    | Some r => r0 ← r !! 0%nat; pref ← r0 !! 0%nat; c ← r0 !! 1%nat; Some (Rock [] [] pref c)
    | None => Some (Rock [] [] 0 0)
    end
  end.

(** isActive, RockCompressibility.cpp:61-64. *)
Definition is_active (r : rock) : bool :=
  match rk_p r with [] => if Req_EM_T (rk_comp r) 0 then false else true | _ => true end.

(** poroMult, RockCompressibility.cpp:66-76. *)
Definition poro_mult (fuel : nat) (r : rock) (pressure : R) : option R :=
  match rk_p r with
  | [] => let cpnorm := rk_comp r * (pressure - rk_pref r) in
          Some (1 + cpnorm + 1 / 2 * cpnorm * cpnorm)
  | _ => linear_interpolation fuel (rk_p r) (rk_mult r) pressure
  end.

(** rockComp, RockCompressibility.cpp:78-90. *)
Definition rock_comp (fuel : nat) (r : rock) (pressure : R) : option R :=
  match rk_p r with
  | [] => Some (rk_comp r)
  | _ =>
    poromult ← linear_interpolation fuel (rk_p r) (rk_mult r) pressure;
    dporomultdp ← linear_derivative fuel (rk_p r) (rk_mult r) pressure;
    rdiv dporomultdp poromult
  end.
