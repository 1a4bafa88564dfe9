(** Reordered input, orientation and crossings, stated on the input. *)
From Coq Require Import Reals Lra.
From Verif Require Import Base.

(** [out] holds [inp] with the values of each column adjacent. *)
Definition by_columns {A} (nx ny nz : nat) (inp out : list A) : Prop :=
  length out = nx * ny * nz ∧ ∀ i j k, i < nx → j < ny → k < nz → out !! (nz * (i + nx * j) + k) = inp !! (i + nx * (j + ny * k)).

(** The depths of the corners, times [s], do not decrease from one corner to
    the next below it if the cells of both are active. *)
Definition in_use (actnum : option (list Z)) (c : nat) : Prop := ∀ a, actnum = Some a → ∃ v, a !! c = Some v ∧ v ≠ 0%Z.
Definition descending (nx ny nz : nat) (actnum : option (list Z)) (zcorn : list R) (s : R) : Prop :=
  ∀ i j k z z', i < 2 * nx → j < 2 * ny → k + 1 < 2 * nz →
    in_use actnum (i / 2 + nx * (j / 2 + ny * (k / 2))) → in_use actnum (i / 2 + nx * (j / 2 + ny * ((k + 1) / 2))) →
    zcorn !! (i + 2 * nx * (j + 2 * ny * k)) = Some z → zcorn !! (i + 2 * nx * (j + 2 * ny * (k + 1))) = Some z' → (s * z <= s * z')%R.

Local Open Scope R_scope.
(** Points and the segments between them. *)
Definition between (a : R) (p q : list R) : list R := zip_with (λ x y, (1 - a) * x + a * y) p q.
(** [x] is where the line from [A] to [B] and the line from [C] to [D] have the
    same depth at the same place; [A], [C] are on one pillar, [B], [D] on the
    other; in the plane it is between the places of that depth on the pillars. *)
Definition crosses (A B C D x : list R) : Prop :=
  ∃ a b c, 0 < a < 1 ∧ x = between a (between b A C) (between c B D) ∧
    x !! 2%nat = between a A B !! 2%nat ∧ x !! 2%nat = between a C D !! 2%nat ∧
    x !! 2%nat = between b A C !! 2%nat ∧ x !! 2%nat = between c B D !! 2%nat.

(** [z] is the vertical extent of cell [(i, j, k)] at its corner column [(a, b)]. *)
Definition edge (nx ny : nat) (zcorn : list R) (i j k a b : nat) (z : R) : Prop :=
  ∃ top bottom, zcorn !! (2 * i + a + 2 * nx * (2 * j + b + 2 * ny * (2 * k)))%nat = Some top ∧
    zcorn !! (2 * i + a + 2 * nx * (2 * j + b + 2 * ny * (2 * k + 1)))%nat = Some bottom ∧ z = bottom - top.
(** [d] is the area of the parallelogram of the two sides of the grid that meet
    in its first pillar, negative if the turn from the first to the second is
    clockwise. *)
Definition turn (nx ny : nat) (coord : list R) (d : R) : Prop :=
  ∃ x0 y0 xi yi xj yj, coord !! 0%nat = Some x0 ∧ coord !! 1%nat = Some y0 ∧
    coord !! (6 * nx)%nat = Some xi ∧ coord !! (6 * nx + 1)%nat = Some yi ∧
    coord !! (6 * ((nx + 1) * ny))%nat = Some xj ∧ coord !! (6 * ((nx + 1) * ny) + 1)%nat = Some yj ∧
    d = (xi - x0) * (yj - y0) - (xj - x0) * (yi - y0).
