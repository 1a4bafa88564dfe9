(** Logically Cartesian numbering, stated by coordinates. *)
From Verif Require Import Base.

Inductive dir := DX | DY | DZ.
Definition at_dir (d e : dir) : nat := match d, e with DX, DX | DY, DY | DZ, DZ => 1 | _, _ => 0 end.

Section spec.
Variables nx ny nz : nat.
(** Cells run fastest along x, then y, then z. *)
Definition cell_no (i j k : nat) : nat := i + nx * (j + ny * k).
Definition cell_at (i j k : nat) : Prop := i < nx ∧ j < ny ∧ k < nz.
(** Nodes likewise, one more in each direction. *)
Definition node_no (i j k : nat) : nat := i + (nx + 1) * (j + (ny + 1) * k).
Definition node_at (i j k : nat) : Prop := i ≤ nx ∧ j ≤ ny ∧ k ≤ nz.
(** Faces: those normal to x first, then y, then z. *)
Definition face_no (d : dir) (i j k : nat) : nat :=
  match d with
  | DX => i + (nx + 1) * (j + ny * k)
  | DY => (nx + 1) * ny * nz + (i + nx * (j + (ny + 1) * k))
  | DZ => (nx + 1) * ny * nz + nx * (ny + 1) * nz + (i + nx * (j + ny * k))
  end.
Definition face_at (d : dir) (i j k : nat) : Prop :=
  i < nx + at_dir d DX ∧ j < ny + at_dir d DY ∧ k < nz + at_dir d DZ.
(** The cell below and above a face along its direction, -1 if there is none. *)
Definition below (d : dir) (i j k : nat) : Z :=
  match d with
  | DX => match i with O => (-1)%Z | S i => Z.of_nat (cell_no i j k) end
  | DY => match j with O => (-1)%Z | S j => Z.of_nat (cell_no i j k) end
  | DZ => match k with O => (-1)%Z | S k => Z.of_nat (cell_no i j k) end
  end.
Definition above (i j k : nat) : Z :=
  if decide (cell_at i j k) then Z.of_nat (cell_no i j k) else (-1)%Z.
(** The four corners of a face, walked around so that the right hand rule gives
    the positive direction. *)
Definition corners (d : dir) (i j k : nat) : list nat :=
  match d with
  | DX => [node_no i j k; node_no i (j+1) k; node_no i (j+1) (k+1); node_no i j (k+1)]
  | DY => [node_no i j k; node_no i j (k+1); node_no (i+1) j (k+1); node_no (i+1) j k]
  | DZ => [node_no i j k; node_no (i+1) j k; node_no (i+1) (j+1) k; node_no i (j+1) k]
  end.
(** The faces of a cell: west, east, south, north, bottom, top. *)
Definition faces_of (i j k : nat) : list nat :=
  [face_no DX i j k; face_no DX (i+1) j k; face_no DY i j k; face_no DY i (j+1) k; face_no DZ i j k; face_no DZ i j (k+1)].
End spec.

Section spec2.
Variables nx ny : nat.
Definition cell2_no (i j : nat) : nat := i + nx * j.
Definition cell2_at (i j : nat) : Prop := i < nx ∧ j < ny.
Definition node2_no (i j : nat) : nat := i + (nx + 1) * j.
Definition node2_at (i j : nat) : Prop := i ≤ nx ∧ j ≤ ny.
(** Edges normal to x first ([false]), then those normal to y ([true]). *)
Definition face2_no (d : bool) (i j : nat) : nat :=
  if d then (nx + 1) * ny + (i + nx * j) else i + (nx + 1) * j.
Definition face2_at (d : bool) (i j : nat) : Prop := if d then i < nx ∧ j < ny + 1 else i < nx + 1 ∧ j < ny.
Definition below2 (d : bool) (i j : nat) : Z :=
  if d then match j with O => (-1)%Z | S j => Z.of_nat (cell2_no i j) end
  else match i with O => (-1)%Z | S i => Z.of_nat (cell2_no i j) end.
Definition above2 (i j : nat) : Z := if decide (cell2_at i j) then Z.of_nat (cell2_no i j) else (-1)%Z.
(** The end points of an edge; the edge turned to the right gives the positive
    direction. *)
Definition ends2 (d : bool) (i j : nat) : list nat :=
  if d then [node2_no (i+1) j; node2_no i j] else [node2_no i j; node2_no i (j+1)].
(** Edges of a cell: west, south, east, north, with tags 0, 2, 1, 3. *)
Definition faces2_of (i j : nat) : list nat := [face2_no false i j; face2_no true i j; face2_no false (i+1) j; face2_no true i (j+1)].
End spec2.
