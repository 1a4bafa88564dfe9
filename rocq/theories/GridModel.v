(** The grid data structure, opm/core/grid.h. *)
From Verif Require Import Base.

(** The topological part of struct UnstructuredGrid (opm/core/grid.h:87-235)
    that the algorithms read: number_of_cells, number_of_faces, cell_facepos,
    cell_faces and face_cells (two entries per face, -1 for "no cell"). *)
Record ugrid := UGrid {
  u_nc : nat; u_nf : nat; u_facepos : list nat; u_cellfaces : list nat; u_facecells : list Z }.
