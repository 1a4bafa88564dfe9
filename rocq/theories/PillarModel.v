(** interpolate_pillar of uniquepoints.c over the real numbers. *)
From Coq Require Import Reals Lra.
From Verif Require Import Base.
Local Open Scope R_scope.

(** interpolate_pillar, uniquepoints.c:240-262; [c] are the six values of coord,
    [z] is pt[2], the result is pt[0] and pt[1]. Simplification: doubles are
    real numbers. *)
Definition interpolate_pillar (c : list R) (z : R) : R * R :=
  let at_ k := nth k c 0 in
  let a := if Rlt_dec 0 (Rabs (at_ 5%nat - at_ 2%nat)) then (z - at_ 2%nat) / (at_ 5%nat - at_ 2%nat) else 0 in
  ((1 - a) * at_ 0%nat + a * at_ 3%nat, (1 - a) * at_ 1%nat + a * at_ 4%nat).
