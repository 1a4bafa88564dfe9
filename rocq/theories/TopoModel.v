(** Model of opm/core/grid/cornerpoint_grid.c. The
    values are not negative except in face_cells; [None] is undefined behaviour.
    The tags are numbers, LEFT = 0, BACK = 1, TOP = 2 (preprocess.h:56). *)
From Coq Require Import Reals.
From Verif Require Import Base LoopModel CsrModel GridModel UniqModel PrepModel GrdModel PolyModel.

Section topology.
Variable fc : list Z.
Variable tag : list nat.
(** The counting loop, cornerpoint_grid.c:40-46. *)
Definition count_face (f : nat) (pos : list nat) : option (list nat) :=
  c1 ← fc !! (2 * f + 0); c2 ← fc !! (2 * f + 1);
  pos ← (if decide (0 ≤ c1)%Z then count_one pos (Z.to_nat c1) else Some pos);
  if decide (0 ≤ c2)%Z then count_one pos (Z.to_nat c2) else Some pos.
(** The assignments of cornerpoint_grid.c:89-92 and 96-99. *)
Definition push_half (c f t : nat) (s : list nat * list nat * list nat) : option (list nat * list nat * list nat) :=
  let '(pos, faces, tags) := s in
  p ← pos !! S c;
  faces ← upd faces p f; tags ← upd tags p t;
  pos ← upd pos (S c) (S p);
  Some (pos, faces, tags).
(** The body of the loop cornerpoint_grid.c:83-101. *)
Definition push_face (f : nat) (s : list nat * list nat * list nat) : option (list nat * list nat * list nat) :=
  t ← tag !! f;
  c1 ← fc !! (2 * f + 0); c2 ← fc !! (2 * f + 1);
  s ← (if decide (0 ≤ c1)%Z then push_half (Z.to_nat c1) f (2 * t + 1) s else Some s);
  if decide (0 ≤ c2)%Z then push_half (Z.to_nat c2) f (2 * t + 0) s else Some s.
(** fill_cell_topology, cornerpoint_grid.c:24-105; [junk] fills new memory. The
    result is cell_facepos, cell_faces and cell_facetag, or NULL. *)
Definition fill_cell_topology (junk nc nf : nat) (o : list bool) : option (option (list nat * list nat * list nat) * list bool) :=
  let '(ok, o) := next_alloc o in
  if ok then
    pos ← for_loop (nc + 1) 0 (λ c pos, upd pos c 0) (replicate (nc + 1) junk);
    pos ← for_loop nf 0 count_face pos;
    pos ← scan_loop nc 1 pos;
    nhf ← pos !! 0;
    pos ← upd pos 0 0;
    let '(ok1, o) := next_alloc o in
    let '(ok2, o) := next_alloc o in
    if ok1 && ok2 then
      s ← for_loop nf 0 push_face (pos, replicate nhf junk, replicate nhf junk);
      Some (Some s, o)
    else Some (None, o)
  else Some (None, o).
End topology.

(** The values of enum face_tag, preprocess.h:56. *)
Definition tag_number (t : ftag) : nat := match t with LEFT => 0 | BACK => 1 | TOP => 2 end.
(** The fields of UnstructuredGrid that create_grid_cornerpoint sets. Node
    numbers are natural numbers (a negative one would become 0 here; C60_faces
    shows that there is none), and face_cells ends after the last face. *)
Record cpgrid := CpGrid { cp_grid : ugrid; cp_facetag : list nat; cp_nodepos : list nat; cp_facenodes : list nat; cp_coords : list R; cp_nn : nat;
  cp_normals : list R; cp_fcentroids : list R; cp_areas : list R; cp_centroids : list R; cp_volumes : list R; cp_dims : nat * nat * nat; cp_global : list Z }.
(** The conversion of cornerpoint_grid.c:187-195, with the result of
    fill_cell_topology. *)
Definition to_grid (out : processed) (pos faces : list nat) : ugrid :=
  UGrid (o_cells out) (g_nf (o_g out)) pos faces (take (2 * g_nf (o_g out)) (g_nbr (o_g out))).
(** allocate_geometry, cornerpoint_grid.c:107-134, without the arrays. *)
Definition allocate_geometry (o : list bool) : bool * list bool :=
  let '(a, o) := next_alloc o in let '(b, o) := next_alloc o in let '(c, o) := next_alloc o in let '(d, o) := next_alloc o in let '(e, o) := next_alloc o in
  (a && b && c && d && e, o).
(** create_grid_cornerpoint, cornerpoint_grid.c:163-235; memory that
    process_grdecl asks for is always there. *)
Definition create_grid_cornerpoint (qsort : list R → list R) (junk : Z) (junkn : nat) (junkr : R) (nx ny nz : nat) (coord zcorn : list R) (actnum : option (list Z)) (tol : R)
    (o : list bool) : option (option cpgrid * list bool) :=
  let '(ok, o) := next_alloc o in
  if ok then
    out ← process_grdecl qsort junk junkr nx ny nz coord zcorn actnum tol;
    let g := o_g out in
    '(t, o) ← fill_cell_topology (g_nbr g) (tag_number <$> g_tag g) junkn (o_cells out) (g_nf g) o;
    match t with
    | None => Some (None, o)
    | Some (pos, faces, tags) =>
      let '(ok, o) := allocate_geometry o in
      if ok then
        let nf := g_nf g in let nc := o_cells out in
        '(N, C, A, cc, cv) ← compute_geometry3 (o_coords out) (g_ptr g) (Z.to_nat <$> g_nodes g) (to_grid out pos faces)
          (replicate (3 * nf) junkr) (replicate (3 * nf) junkr) (replicate nf junkr) (replicate (3 * nc) junkr) (replicate nc junkr);
        Some (Some (CpGrid (to_grid out pos faces) tags (g_ptr g) (Z.to_nat <$> g_nodes g) (o_coords out) (g_nn g) N C A cc cv (nx, ny, nz) (o_gci out)), o)
      else Some (None, o)
    end
  else Some (None, o).
