(** Vertical faces between two columns of cells, as plane geometry. *)
From Coq Require Import Reals Lra.
From Verif Require Import Base UniqModel PrepModel HorizSpec.

(** Two columns, [A] and [B], between two pillars, 1 and 2: the point numbers of
    the levels [0 .. n - 1] of the columns on the pillars. *)
Record columns := Columns { A1 : nat → Z; A2 : nat → Z; B1 : nat → Z; B2 : nat → Z }.

(** Numbers do not decrease downwards; the level above everything is INT_MIN and
    the one below is INT_MAX; a level is above everything on both pillars or on
    none; a cell, [(k, k + 1)] with odd [k], is above everything as a whole or
    not at all. *)
Record column_ok (n : nat) (C1 C2 : nat → Z) : Prop := {
  co_mono1 : ∀ k, k + 1 < n → (C1 k ≤ C1 (k + 1)%nat)%Z;
  co_mono2 : ∀ k, k + 1 < n → (C2 k ≤ C2 (k + 1)%nat)%Z;
  co_first : C1 0 = int_min ∧ C2 0 = int_min;
  co_last : C1 (n - 1) = int_max ∧ C2 (n - 1) = int_max;
  co_below : ∀ k, k < n - 1 → (C1 k < int_max ∧ C2 k < int_max)%Z;
  co_both : ∀ k, k < n → C1 k = int_min ↔ C2 k = int_min;
  co_cell : ∀ k, k + 1 < n → k mod 2 = 1 → C1 k = int_min → C1 (k + 1) = int_min;
  co_num : ∀ k, k < n → (C1 k = int_min ∨ 0 ≤ C1 k)%Z ∧ (C2 k = int_min ∨ 0 ≤ C2 k)%Z }.

Section geometry.
(** The depths of the points on the pillars. *)
Variables (z1 z2 : Z → R).
Local Open Scope R_scope.
(** The line from point [p] of pillar 1 at [t = 0] to point [q] of pillar 2 at
    [t = 1]. *)
Definition line (p q : Z) (t : R) : R := (1 - t) * z1 p + t * z2 q.
Variables (C : columns).
Definition lineA (i : nat) : R → R := line (A1 C i) (A2 C i).
Definition lineB (j : nat) : R → R := line (B1 C j) (B2 C j).
(** The points [(t, z)] common to the strips [(i, i + 1)] of A and [(j, j + 1)] of B. *)
Definition common (i j : nat) (t z : R) : Prop :=
  0 <= t <= 1 ∧ lineA i t <= z ∧ lineB j t <= z ∧ z <= lineA (i + 1)%nat t ∧ z <= lineB (j + 1)%nat t.
(** There is a point inside both. *)
Definition overlap (i j : nat) : Prop :=
  ∃ t z, 0 < t < 1 ∧ lineA i t < z ∧ lineB j t < z ∧ z < lineA (i + 1)%nat t ∧ z < lineB (j + 1)%nat t.
(** Two lines cross between the pillars. *)
Definition crossing (p1 p2 q1 q2 : Z) : Prop := (z1 p1 - z1 q1) * (z2 p2 - z2 q2) < 0.

(** Corners of faces: points of the pillars and crossings of lines. *)
Inductive vertex := V1 (p : Z) | V2 (p : Z) | VX (p1 p2 q1 q2 : Z).
Definition at_vertex (v : vertex) (t z : R) : Prop :=
  match v with
  | V1 p => t = 0 ∧ z = z1 p
  | V2 p => t = 1 ∧ z = z2 p
  | VX p1 p2 q1 q2 => 0 < t < 1 ∧ z = line p1 p2 t ∧ z = line q1 q2 t ∧ crossing p1 p2 q1 q2
  end.
(** The convex hull of the vertices. *)
Inductive hull (vs : list vertex) : R → R → Prop :=
  | hull_vertex v t z : v ∈ vs → at_vertex v t z → hull vs t z
  | hull_between t z t' z' l : hull vs t z → hull vs t' z' → 0 <= l <= 1 → hull vs ((1 - l) * t + l * t') ((1 - l) * z + l * z').

(** [vs] runs along the upper boundary of the common part from left to right,
    then back along the lower boundary, and the common part is its hull. *)
Record polygon (i j : nat) (vs : list vertex) : Prop := {
  po_at : ∀ v, v ∈ vs → ∃ t z, at_vertex v t z;
  po_distinct : ∀ k l v w t z, vs !! k = Some v → vs !! l = Some w → at_vertex v t z → at_vertex w t z → k = l;
  po_hull : ∀ t z, hull vs t z ↔ common i j t z;
  po_order : ∃ up down, vs = up ++ down ∧
    (∀ v t z, v ∈ up → at_vertex v t z → z = Rmax (lineA i t) (lineB j t)) ∧
    (∀ v t z, v ∈ down → at_vertex v t z → z = Rmin (lineA (i + 1)%nat t) (lineB (j + 1)%nat t)) ∧
    (∀ k v w t z t' z', up !! k = Some v → up !! S k = Some w → at_vertex v t z → at_vertex w t' z' → t < t') ∧
    (∀ k v w t z t' z', down !! k = Some v → down !! S k = Some w → at_vertex v t z → at_vertex w t' z' → t' < t) }.
End geometry.

(** The number of a vertex: crossings are numbered from [base] on in the order
    in which they are listed in [I]. *)
Definition numbered_as (base : nat) (I : list (Z * Z * Z * Z)) (v : vertex) (x : Z) : Prop :=
  match v with
  | V1 p => x = p
  | V2 p => x = p
  | VX p1 p2 q1 q2 => ∃ m, I !! m = Some (p1, p2, q1, q2) ∧ x = Z.of_nat (base + m)
  end.

Definition cell_index (i : nat) (c : Z) : Prop := (∃ k, i = 2 * k ∧ c = (-1)%Z) ∨ ∃ k, i = 2 * k + 1 ∧ c = Z.of_nat k.
(** The faces [F] and crossings [I] between two columns. [K] are the pairs of
    strips of the faces; [ia] and [ib] relate the strips of the columns to the
    cells named by the faces. *)
Record right_connections (z1 z2 : Z → R) (n : nat) (C : columns) (ia ib : nat → Z → Prop) (base : nat) (K : list (nat * nat)) (F : list face) (I : list (Z * Z * Z * Z)) : Prop := {
  rc_pairs : ∀ i j, (i, j) ∈ K ↔ i + 1 < n ∧ j + 1 < n ∧ (i mod 2 = 1 ∨ j mod 2 = 1) ∧ overlap z1 z2 C i j;
  rc_order : ∀ u v i j i' j', u < v → K !! u = Some (i, j) → K !! v = Some (i', j') → i < i' ∨ (i = i' ∧ j < j');
  rc_faces : Forall2 (λ '(i, j) x, ia i (fc_a x) ∧ ib j (fc_b x) ∧
    ∃ vs, polygon z1 z2 C i j vs ∧ Forall2 (numbered_as base I) vs (fc_nodes x)) K F;
  rc_crossings : ∀ p1 p2 q1 q2, (p1, p2, q1, q2) ∈ I ↔ ∃ i j, i < n ∧ j < n ∧ p1 = A1 C i ∧ p2 = A2 C i ∧ q1 = B1 C j ∧ q2 = B2 C j ∧ crossing z1 z2 p1 p2 q1 q2;
  rc_nodup : NoDup I }.

(** ** The whole grid *)
Section whole.
Variables (nx ny nz : nat) (plist : list Z).
(** Level [k] of the corner column [(i, j)]; level 0 is above and level
    [2 nz + 1] below all corners. *)
Definition lev (i j k : nat) : Z := default 0%Z (plist !! ((2 * nz + 2) * (i + 2 * nx * j) + k)).
(** The two columns of corners that meet in the vertical plane [i] of direction 0
    or [j] of direction 1; outside the grid there is the column inside again. *)
Definition meeting (dir i j : nat) : columns :=
  if decide (dir = 0) then Columns (lev (2 * i - 1) (2 * j)) (lev (2 * i - 1) (2 * j + 1)) (lev (Nat.min (2 * i) (2 * nx - 1)) (2 * j)) (lev (Nat.min (2 * i) (2 * nx - 1)) (2 * j + 1))
  else Columns (lev (2 * i + 1) (2 * j - 1)) (lev (2 * i) (2 * j - 1)) (lev (2 * i + 1) (Nat.min (2 * j) (2 * ny - 1))) (lev (2 * i) (Nat.min (2 * j) (2 * ny - 1))).
(** The pillars that bound the plane. *)
Definition pillar_at (i j : nat) : nat := i + (nx + 1) * j.
Definition pillar1 (dir i j : nat) : nat := if decide (dir = 0) then pillar_at i j else pillar_at (i + 1) j.
Definition pillar2 (dir i j : nat) : nat := if decide (dir = 0) then pillar_at i (j + 1) else pillar_at i j.
(** Strip [s] of the column of cells [(i, j)] is cell [c]; -1 stands for
    everything that is no cell. *)
Definition side (i j : Z) (s : nat) (c : Z) : Prop :=
  ((0 ≤ i < Z.of_nat nx ∧ 0 ≤ j < Z.of_nat ny)%Z ∧ ∃ k, s = 2 * k + 1 ∧ c = cid nx ny (Z.to_nat i) (Z.to_nat j) k) ∨
  ((¬ (0 ≤ i < Z.of_nat nx ∧ 0 ≤ j < Z.of_nat ny)%Z ∨ ∃ k, s = 2 * k) ∧ c = (-1)%Z).
(** The levels of the corner columns of a cell are in order. *)
Definition columns_ok : Prop := ∀ i j a b a' b', i < nx → j < ny → a < 2 → b < 2 → a' < 2 → b' < 2 →
  column_ok (2 * nz + 2) (lev (2 * i + a) (2 * j + b)) (lev (2 * i + a') (2 * j + b')).
(** The faces and crossings of plane [(i, j)]; [zp] are the depths of the points
    of the pillars. *)
Definition right_plane (zp : nat → Z → R) (dir i j base : nat) (F : list face) (I : list (Z * Z * Z * Z)) : Prop :=
  ∃ K, right_connections (zp (pillar1 dir i j)) (zp (pillar2 dir i j)) (2 * nz + 2) (meeting dir i j)
    (side (Z.of_nat i - 1 + Z.of_nat dir) (Z.of_nat j - Z.of_nat dir)) (side (Z.of_nat i) (Z.of_nat j)) base K F I.
(** Some crossings of plane [(i, j)]. *)
Definition crossings_of (zp : nat → Z → R) (dir i j : nat) (I : list (Z * Z * Z * Z)) : Prop :=
  NoDup I ∧ ∀ p1 p2 q1 q2, (p1, p2, q1, q2) ∈ I → ∃ k l, k < 2 * nz + 2 ∧ l < 2 * nz + 2 ∧
    p1 = A1 (meeting dir i j) k ∧ p2 = A2 (meeting dir i j) k ∧ q1 = B1 (meeting dir i j) l ∧ q2 = B2 (meeting dir i j) l ∧
    crossing (zp (pillar1 dir i j)) (zp (pillar2 dir i j)) p1 p2 q1 q2.
End whole.
(** The rows of the array intersections. *)
Definition quads (I : list (Z * Z * Z * Z)) : list Z := concat ((λ '(a, b, c, d), [a; b; c; d]) <$> I).
