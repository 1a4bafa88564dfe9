(** Model of opm/core/grid/cpgpreprocess/geometry.c.  Doubles are real numbers;
    the constant [twothirds] is two thirds; division by zero and access out of
    bounds are [None]. *)
From Coq Require Import Reals.
From Verif Require Import Base GridModel LoopModel TableModel.
Local Open Scope R_scope.

(** The local arrays of three doubles. *)
Notation arr3 := (R * R * R)%type.
Definition zero3 : arr3 := (0, 0, 0).
(** The loops over the three (two) components, written out. *)
Definition each3 (f : R → R → R) (u v : arr3) : arr3 := (f u.1.1 v.1.1, f u.1.2 v.1.2, f u.2 v.2).
Definition div3 (u : arr3) (d : R) : option arr3 :=
  x ← rdiv u.1.1 d; y ← rdiv u.1.2 d; z ← rdiv u.2 d; Some (x, y, z).
(** [coords[3*node+i]] for the three [i]. *)
Definition read3 (a : list R) (n : nat) : option arr3 :=
  x ← a !! (3 * n)%nat; y ← a !! (3 * n + 1)%nat; z ← a !! (3 * n + 2)%nat; Some (x, y, z).
Definition write3 (a : list R) (n : nat) (v : arr3) : option (list R) :=
  a ← upd a (3 * n)%nat v.1.1; a ← upd a (3 * n + 1)%nat v.1.2; upd a (3 * n + 2)%nat v.2.

(** cross, geometry.c:12-20, and norm, geometry.c:22-28. *)
Definition cross (u v : arr3) : arr3 :=
  (u.1.2 * v.2 - u.2 * v.1.2, u.2 * v.1.1 - u.1.1 * v.2, u.1.1 * v.1.2 - u.1.2 * v.1.1).
Definition norm (w : arr3) : R := R_sqrt.sqrt (w.1.1 * w.1.1 + w.1.2 * w.1.2 + w.2 * w.2).
Definition twothirds : R := 2 / 3.

Section geometry.
Variable coords : list R.
Variables nodepos facenodes : list nat.

(** The first part of the body of the loop over faces, geometry.c:65-83, and of
    the loop over the faces of a cell, geometry.c:264-284: the bounds of the
    nodes of the face, the average node [x] and the vector [u] to the last. *)
Definition face_start (f : nat) : option (nat * nat * arr3 * arr3) :=
  b ← nodepos !! f; e ← nodepos !! (f + 1)%nat;
  x ← for_loop (e - b) b (λ k x, node ← facenodes !! k; p ← read3 coords node; Some (each3 Rplus x p)) zero3;
  x ← div3 x (IZR (Z.of_nat e - Z.of_nat b));
  if decide (e = 0)%nat then None else
  node ← facenodes !! (e - 1)%nat; p ← read3 coords node;
  Some (b, e, x, each3 Rminus p x).

(** The loop over triangles, geometry.c:87-113: vector to the previous node,
    normal, centroid, area. *)
Definition face_tri (x : arr3) (k : nat) (s : arr3 * arr3 * arr3 * R) : option (arr3 * arr3 * arr3 * R) :=
  let '(u, n, cface, area) := s in
  node ← facenodes !! k; p ← read3 coords node;
  let v := each3 Rminus p x in
  let w := cross u v in
  let a := 1 / 2 * norm w in
  let g (x uv : R) := x + twothirds * (1 / 2) * uv in
  Some (v, each3 Rplus n w, each3 (λ c t, c + a * t) cface (each3 g x (each3 Rplus u v)), area + a).
(** The body of the loop over faces, geometry.c:62-122. *)
Definition face_body (f : nat) (s : list R * list R * list R) : option (list R * list R * list R) :=
  '(b, e, x, u) ← face_start f;
  '(u, n, cface, area) ← for_loop (e - b) b (face_tri x) (u, zero3, zero3, 0);
  let '(fnormals, fcentroids, fareas) := s in
  fnormals ← write3 fnormals f (each3 (λ _ t, 1 / 2 * t) zero3 n);
  c ← div3 cface area;
  fcentroids ← write3 fcentroids f c;
  fareas ← upd fareas f area;
  Some (fnormals, fcentroids, fareas).
(** compute_face_geometry_3d, geometry.c:31-124. *)
Definition face_geometry3 (nfaces : nat) (s : list R * list R * list R) : option (list R * list R * list R) :=
  for_loop nfaces 0 face_body s.

Section cells.
Variable neighbors : list Z.
Variables fnormals fcentroids : list R.
Variables facepos cellfaces : list nat.

(** The loop over the triangles of a face of cell [c], geometry.c:288-326:
    vector to the previous node, volume, moment. *)
Definition cell_tri (c face : nat) (xcell x : arr3) (k : nat) (s : arr3 * R * arr3) : option (arr3 * R * arr3) :=
  let '(u, volume, ccell) := s in
  node ← facenodes !! k; p ← read3 coords node;
  let v := each3 Rminus p x in
  let w := cross u v in
  let d := each3 Rminus x xcell in
  let tet := (w.1.1 * d.1.1 + w.1.2 * d.1.2 + w.2 * d.2) * (1 / 2 / 3) in
  m ← read3 fnormals face;
  let sign := w.1.1 * m.1.1 + w.1.2 * m.1.2 + w.2 * m.2 in
  let tet := if Rlt_dec sign 0 then - tet else tet in
  a ← neighbors !! (2 * face)%nat;
  let tet := if decide (a = Z.of_nat c) then tet else - tet in
  let cface := each3 (λ x uv, x + twothirds * (1 / 2) * uv) x (each3 Rplus u v) in
  Some (v, volume + tet, each3 (λ m d, m + tet * 3 / 4 * d) ccell (each3 Rminus cface xcell)).
(** The body of the loop over the faces of cell [c], geometry.c:258-327. *)
Definition cell_face (c : nat) (xcell : arr3) (i : nat) (s : R * arr3) : option (R * arr3) :=
  face ← cellfaces !! i;
  '(b, e, x, u) ← face_start face;
  '(u, volume, ccell) ← for_loop (e - b) b (cell_tri c face xcell x) (u, s.1, s.2);
  Some (volume, ccell).
(** The body of the loop over cells, geometry.c:232-330. *)
Definition cell_body (c : nat) (s : list R * list R) : option (list R * list R) :=
  b ← facepos !! c; e ← facepos !! (c + 1)%nat;
  xcell ← for_loop (e - b) b (λ i x, face ← cellfaces !! i; p ← read3 fcentroids face; Some (each3 Rplus x p)) zero3;
  xcell ← div3 xcell (IZR (Z.of_nat e - Z.of_nat b));
  '(volume, ccell) ← for_loop (e - b) b (cell_face c xcell) (0, zero3);
  t ← div3 ccell volume;
  ccentroids ← write3 s.1 c (each3 Rplus xcell t);
  cvolumes ← upd s.2 c volume;
  Some (ccentroids, cvolumes).
(** compute_cell_geometry_3d, geometry.c:202-331. *)
Definition cell_geometry3 (ncells : nat) (s : list R * list R) : option (list R * list R) :=
  for_loop ncells 0 cell_body s.
End cells.

(** ** Two dimensions *)
Definition read2 (a : list R) (n : nat) : option (R * R) :=
  x ← a !! (2 * n)%nat; y ← a !! (2 * n + 1)%nat; Some (x, y).
Definition write2 (a : list R) (n : nat) (v : R * R) : option (list R) :=
  a ← upd a (2 * n)%nat v.1; upd a (2 * n + 1)%nat v.2.
(** The two nodes of an edge, geometry.c:158-166 and 388-398; the assertion of
    geometry.c:155 is in [edge_body]. *)
Definition edge_ends (edge : nat) : option ((R * R) * (R * R)) :=
  b ← nodepos !! edge;
  a_nod ← facenodes !! b; b_nod ← facenodes !! (b + 1)%nat;
  p ← read2 coords a_nod; q ← read2 coords b_nod; Some (p, q).
(** The body of the loop over edges, geometry.c:152-184. *)
Definition edge_body (edge : nat) (s : list R * list R * list R) : option (list R * list R * list R) :=
  b ← nodepos !! edge; e ← nodepos !! (edge + 1)%nat;
  if decide (e = b + 2)%nat then
    '(p, q) ← edge_ends edge;
    let '(normals, midpoints, lengths) := s in
    midpoints ← write2 midpoints edge ((p.1 + q.1) * (1 / 2), (p.2 + q.2) * (1 / 2));
    let v := (q.1 - p.1, q.2 - p.2) in
    normals ← write2 normals edge (v.2, - v.1);
    lengths ← upd lengths edge (R_sqrt.sqrt (v.1 * v.1 + v.2 * v.2));
    Some (normals, midpoints, lengths)
  else None.
(** compute_edge_geometry_2d, geometry.c:127-186. *)
Definition edge_geometry2 (nedges : nat) (s : list R * list R * list R) : option (list R * list R * list R) :=
  for_loop nedges 0 edge_body s.

Section cells2.
Variable midpoints : list R.
Variables facepos cellfaces : list nat.
(** The body of the loop over cells, geometry.c:363-415. *)
Definition cell2_body (c : nat) (s : list R * list R) : option (list R * list R) :=
  b ← facepos !! c; e ← facepos !! (c + 1)%nat;
  let num := IZR (Z.of_nat e - Z.of_nat b) in
  m ← for_loop (e - b) b (λ i (m : R * R), edge ← cellfaces !! i; p ← read2 midpoints edge; Some (m.1 + p.1, m.2 + p.2)) (0, 0);
  cx ← rdiv m.1 num; cy ← rdiv m.2 num;
  centers ← write2 s.1 c (cx, cy);
  area ← for_loop (e - b) b (λ i area, edge ← cellfaces !! i; '(p, q) ← edge_ends edge;
    let a := (p.1 - cx, p.2 - cy) in let b := (q.1 - cx, q.2 - cy) in
    Some (area + Rabs (a.1 * b.2 - a.2 * b.1))) 0;
  areas ← upd s.2 c (area * (1 / 2));
  Some (centers, areas).
(** compute_cell_geometry_2d, geometry.c:334-417. *)
Definition cell_geometry2 (ncells : nat) (s : list R * list R) : option (list R * list R) :=
  for_loop ncells 0 cell2_body s.
End cells2.
End geometry.

(** compute_geometry, opm/core/grid/cornerpoint_grid.c:137-158, in three
    dimensions; [mN], [mC], [mA], [mc], [mv] are the arrays face_normals,
    face_centroids, face_areas, cell_centroids, cell_volumes before. *)
Definition compute_geometry3 (coords : list R) (nodepos facenodes : list nat) (g : ugrid) (mN mC mA mc mv : list R) :
    option (list R * list R * list R * list R * list R) :=
  '(N, C, A) ← face_geometry3 coords nodepos facenodes (u_nf g) (mN, mC, mA);
  '(cc, cv) ← cell_geometry3 coords nodepos facenodes (u_facecells g) N C (u_facepos g) (u_cellfaces g) (u_nc g) (mc, mv);
  Some (N, C, A, cc, cv).
(** The same in two dimensions. *)
Definition compute_geometry2 (coords : list R) (nodepos facenodes : list nat) (g : ugrid) (mN mC mA mc mv : list R) :
    option (list R * list R * list R * list R * list R) :=
  '(N, C, A) ← edge_geometry2 coords nodepos facenodes (u_nf g) (mN, mC, mA);
  '(cc, cv) ← cell_geometry2 coords nodepos facenodes C (u_facepos g) (u_cellfaces g) (u_nc g) (mc, mv);
  Some (N, C, A, cc, cv).
