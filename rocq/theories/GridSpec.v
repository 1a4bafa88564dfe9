(** What the comments in opm/core/grid.h demand of a grid. *)
From Verif Require Import Base GridModel CsrSpec.

(** The two cells of face [f]: the flux is counted positive from [a] to [b]
    (grid.h, comment on face_cells); -1 stands for the outside. *)
Definition face_between (g : ugrid) (f : nat) (a b : Z) : Prop :=
  u_facecells g !! (2 * f) = Some a ∧ u_facecells g !! (2 * f + 1) = Some b.

(** [cf] lists the faces of each cell.  The cell-to-face and face-to-cell maps
    agree with each other; no cell is on both sides of a face. *)
Record grid_ok (g : ugrid) (cf : list (list nat)) : Prop := {
  ok_cells : length cf = u_nc g;
  ok_rows : holds_rows (u_facepos g) (u_cellfaces g) cf;
  ok_faces : length (u_facecells g) = 2 * u_nf g;
  ok_range : ∀ f a b, face_between g f a b → (-1 ≤ a < Z.of_nat (u_nc g) ∧ -1 ≤ b < Z.of_nat (u_nc g) ∧ (a = b → a = -1))%Z;
  ok_nodup : ∀ i r, cf !! i = Some r → NoDup r;
  ok_inc : ∀ i r f, cf !! i = Some r →
    (f ∈ r ↔ ∃ a b, face_between g f a b ∧ (a = Z.of_nat i ∨ b = Z.of_nat i)) }.
