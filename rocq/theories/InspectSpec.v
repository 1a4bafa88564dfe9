(** Vocabulary for the inspection of corner-point grids (C70). *)
From Coq Require Import Reals.
From Verif Require Import Base TofSpec MiscSpec InspectModel.
Local Open Scope R_scope.

(** Corner (a, b, c), each 0 or 1, of cell (i, j, k): ZCORN is a box of twice as
    many points in each direction, the first index fastest. *)
Definition corner_z (g : inspector) (i j k a b c : nat) : R := val (gi_zcorn g) ((2 * i + a) + 2 * gi_nx g * ((2 * j + b) + 2 * gi_ny g * (2 * k + c))).
(** Upper point of pillar (i, j). *)
Definition pillar_x (g : inspector) (i j : nat) : R := val (gi_coord g) (6 * (i + (gi_nx g + 1) * j)).
Definition pillar_y (g : inspector) (i j : nat) : R := val (gi_coord g) (6 * (i + (gi_nx g + 1) * j) + 1).
(** Area of a polygon by the formula of Gauss. *)
Definition turn (p q : R * R) : R := fst p * snd q - fst q * snd p.
Definition quad_area (p q r s : R * R) : R := (turn p q + turn q r + turn r s + turn s p) / 2.
Definition point (g : inspector) (i j : nat) : R * R := (pillar_x g i j, pillar_y g i j).
Definition base_area (g : inspector) (i j : nat) : R := quad_area (point g i j) (point g (i + 1) j) (point g (i + 1) (j + 1)) (point g i (j + 1)).
(** Mean depth of the top ([c] = 0) or bottom ([c] = 1). *)
Definition mean_z (g : inspector) (i j k c : nat) : R := (corner_z g i j k 0 0 c + corner_z g i j k 1 0 c + corner_z g i j k 0 1 c + corner_z g i j k 1 1 c) / 4.
(** Least and greatest of several numbers. *)
Definition least (m : R) (l : list R) : Prop := m ∈ l ∧ ∀ x, x ∈ l → m <= x.
Definition greatest (m : R) (l : list R) : Prop := m ∈ l ∧ ∀ x, x ∈ l → x <= m.
(** Cell (i, j, k) lies between two planes of slopes [A] and [B]. *)
Definition tilted (g : inspector) (i j k : nat) (A B : R) : Prop := ∃ h0 h1, ∀ a b, (a <= 1)%nat → (b <= 1)%nat →
  corner_z g i j k a b 0 = h0 + A * (INR a * (pillar_x g (i + 1) j - pillar_x g i j)) + B * (INR b * (pillar_y g i (j + 1) - pillar_y g i j)) ∧
  corner_z g i j k a b 1 = h1 + A * (INR a * (pillar_x g (i + 1) j - pillar_x g i j)) + B * (INR b * (pillar_y g i (j + 1) - pillar_y g i j)).
(** An edge of the top or bottom that does not touch the top or bottom of the model. *)
Definition free_corner (g : inspector) (zmin zmax : R) (i j k a b c : nat) : Prop := corner_z g i j k a b c ≠ (if decide (c = 0)%nat then zmin else zmax).
Definition free_x (g : inspector) (zmin zmax : R) (i j k : nat) : Prop := ∃ b c, (b <= 1)%nat ∧ (c <= 1)%nat ∧ free_corner g zmin zmax i j k 0 b c ∧ free_corner g zmin zmax i j k 1 b c.
Definition free_y (g : inspector) (zmin zmax : R) (i j k : nat) : Prop := ∃ a c, (a <= 1)%nat ∧ (c <= 1)%nat ∧ free_corner g zmin zmax i j k a 0 c ∧ free_corner g zmin zmax i j k a 1 c.
