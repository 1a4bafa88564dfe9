(** Cartesian grids, opm/core/grid/cart_grid.c.  Dimensions are natural
    numbers; C's int overflow for huge grids is not modelled.  Arrays come with
    the sizes that allocate_grid (grid.c:71-149) gives them and arbitrary
    contents. *)
From Coq Require Import Reals.
From Verif Require Import Base LoopModel.

(** The integer arrays of a grid. *)
Record topo := Topo {
  t_cf : list nat; (* cell_faces *) t_cfpos : list nat; (* cell_facepos *) t_tag : list nat; (* cell_facetag *)
  t_fn : list nat; (* face_nodes *) t_fnpos : list nat; (* face_nodepos *) t_fc : list Z (* face_cells *) }.

(** ** Three dimensions *)
Section d3.
Variables nx ny nz : nat.

(** Loop at cart_grid.c:251-265. *)
Definition cells3 (s : stream nat * stream nat) : option (stream nat * stream nat) :=
  let Nx := nx + 1 in let Ny := ny + 1 in
  let nxf := Nx * ny * nz in let nyf := nx * Ny * nz in
  for_loop nz 0 (λ k, for_loop ny 0 (λ j, for_loop nx 0 (λ i '(cfaces, cfacepos),
    cfaces ← puts cfaces
      [ i + Nx * (j + ny * k); i + 1 + Nx * (j + ny * k);
        i + nx * (j + Ny * k) + nxf; i + nx * (j + 1 + Ny * k) + nxf;
        i + nx * (j + ny * k) + nxf + nyf; i + nx * (j + ny * (k + 1)) + nxf + nyf ];
    cfacepos ← bump 6 cfacepos;
    Some (cfaces, cfacepos)))) s.

(** Loop at cart_grid.c:267-271. *)
Definition tags3 (tag : list nat) : option (list nat) :=
  for_loop (nx * ny * nz) 0 (λ k, for_loop 6 0 (λ i tag, upd tag (k * 6 + i) i)) tag.

(** The two writes to fcells, for each direction of the face: [c] is the
    coordinate in that direction, [n] the number of cells. *)
Definition fcells_entry (c n : nat) (before this : Z) : list Z :=
  if decide (c = 0) then [(-1)%Z; this] else if decide (c = n) then [before; (-1)%Z] else [before; this].

Notation faces_st := (stream nat * stream nat * stream Z)%type.
(** Faces with x-normal, cart_grid.c:278-302. *)
Definition xfaces3 (s : faces_st) : option faces_st :=
  let Nx := nx + 1 in let Ny := ny + 1 in
  for_loop nz 0 (λ k, for_loop ny 0 (λ j, for_loop (nx + 1) 0 (λ i '(fnodes, fnodepos, fcells),
    fnodes ← puts fnodes
      [ i + Nx * (j + Ny * k); i + Nx * (j + 1 + Ny * k); i + Nx * (j + 1 + Ny * (k + 1)); i + Nx * (j + Ny * (k + 1)) ];
    fnodepos ← bump 4 fnodepos;
    fcells ← puts fcells (fcells_entry i nx (Z.of_nat i - 1 + Z.of_nat nx * (Z.of_nat j + Z.of_nat ny * Z.of_nat k))
                                            (Z.of_nat i + Z.of_nat nx * (Z.of_nat j + Z.of_nat ny * Z.of_nat k)));
    Some (fnodes, fnodepos, fcells)))) s.
(** Faces with y-normal, cart_grid.c:303-327. *)
Definition yfaces3 (s : faces_st) : option faces_st :=
  let Nx := nx + 1 in let Ny := ny + 1 in
  for_loop nz 0 (λ k, for_loop (ny + 1) 0 (λ j, for_loop nx 0 (λ i '(fnodes, fnodepos, fcells),
    fnodes ← puts fnodes
      [ i + Nx * (j + Ny * k); i + Nx * (j + Ny * (k + 1)); i + 1 + Nx * (j + Ny * (k + 1)); i + 1 + Nx * (j + Ny * k) ];
    fnodepos ← bump 4 fnodepos;
    fcells ← puts fcells (fcells_entry j ny (Z.of_nat i + Z.of_nat nx * (Z.of_nat j - 1 + Z.of_nat ny * Z.of_nat k))
                                            (Z.of_nat i + Z.of_nat nx * (Z.of_nat j + Z.of_nat ny * Z.of_nat k)));
    Some (fnodes, fnodepos, fcells)))) s.
(** Faces with z-normal, cart_grid.c:328-352. *)
Definition zfaces3 (s : faces_st) : option faces_st :=
  let Nx := nx + 1 in let Ny := ny + 1 in
  for_loop (nz + 1) 0 (λ k, for_loop ny 0 (λ j, for_loop nx 0 (λ i '(fnodes, fnodepos, fcells),
    fnodes ← puts fnodes
      [ i + Nx * (j + Ny * k); i + 1 + Nx * (j + Ny * k); i + 1 + Nx * (j + 1 + Ny * k); i + Nx * (j + 1 + Ny * k) ];
    fnodepos ← bump 4 fnodepos;
    fcells ← puts fcells (fcells_entry k nz (Z.of_nat i + Z.of_nat nx * (Z.of_nat j + Z.of_nat ny * (Z.of_nat k - 1)))
                                            (Z.of_nat i + Z.of_nat nx * (Z.of_nat j + Z.of_nat ny * Z.of_nat k)));
    Some (fnodes, fnodepos, fcells)))) s.

(** allocate_cart_grid_3d, cart_grid.c:186-222: the numbers of cells, faces and nodes. *)
Definition ncells3 := nx * ny * nz.
Definition nfaces3 := (nx + 1) * ny * nz + nx * (ny + 1) * nz + nx * ny * (nz + 1).
Definition nnodes3 := (nx + 1) * (ny + 1) * (nz + 1).
(** The sizes of the arrays, allocate_cart_grid (cart_grid.c:169-183). *)
Definition sized3 (m : topo) : Prop :=
  length (t_cf m) = ncells3 * 6 ∧ length (t_cfpos m) = ncells3 + 1 ∧ length (t_tag m) = ncells3 * 6 ∧
  length (t_fn m) = nfaces3 * 4 ∧ length (t_fnpos m) = nfaces3 + 1 ∧ length (t_fc m) = 2 * nfaces3.

(** fill_cart_topology_3d, cart_grid.c:226-353, in memory [m]. *)
Definition topology3 (m : topo) : option topo :=
  cfpos ← upd (t_cfpos m) 0 0;
  '(cf, cfpos) ← cells3 (open (t_cf m), open cfpos);
  tag ← tags3 (t_tag m);
  fnpos ← upd (t_fnpos m) 0 0;
  s ← xfaces3 (open (t_fn m), open fnpos, open (t_fc m));
  s ← yfaces3 s;
  '(fn, fnpos, fc) ← zfaces3 s;
  Some (Topo (st_arr cf) (st_arr cfpos) tag (st_arr fn) (st_arr fnpos) (st_arr fc)).
End d3.

(** ** Two dimensions *)
Section d2.
Variables nx ny : nat.
(** Loop at cart_grid.c:562-572. *)
Definition cells2 (s : stream nat * stream nat) : option (stream nat * stream nat) :=
  let Nx := nx + 1 in let nxf := Nx * ny in
  for_loop ny 0 (λ j, for_loop nx 0 (λ i '(cfaces, cfacepos),
    cfaces ← puts cfaces [ i + Nx * j; i + nx * j + nxf; i + 1 + Nx * j; i + nx * (j + 1) + nxf ];
    cfacepos ← bump 4 cfacepos;
    Some (cfaces, cfacepos))) s.
(** Loop at cart_grid.c:574-579. *)
Definition tags2 (tag : list nat) : option (list nat) :=
  for_loop (nx * ny) 0 (λ j tag,
    tag ← upd tag (j * 4 + 0) 0; tag ← upd tag (j * 4 + 1) 2; tag ← upd tag (j * 4 + 2) 1; upd tag (j * 4 + 3) 3) tag.
Notation faces_st := (stream nat * stream nat * stream Z)%type.
(** Faces with x-normal, cart_grid.c:588-607. *)
Definition xfaces2 (s : faces_st) : option faces_st :=
  let Nx := nx + 1 in
  for_loop ny 0 (λ j, for_loop (nx + 1) 0 (λ i '(fnodes, fnodepos, fcells),
    fnodes ← puts fnodes [ i + Nx * j; i + Nx * (j + 1) ];
    fnodepos ← bump 2 fnodepos;
    fcells ← puts fcells (fcells_entry i nx (Z.of_nat i - 1 + Z.of_nat nx * Z.of_nat j) (Z.of_nat i + Z.of_nat nx * Z.of_nat j));
    Some (fnodes, fnodepos, fcells))) s.
(** Faces with y-normal, cart_grid.c:610-629. *)
Definition yfaces2 (s : faces_st) : option faces_st :=
  let Nx := nx + 1 in
  for_loop (ny + 1) 0 (λ j, for_loop nx 0 (λ i '(fnodes, fnodepos, fcells),
    fnodes ← puts fnodes [ i + 1 + Nx * j; i + Nx * j ];
    fnodepos ← bump 2 fnodepos;
    fcells ← puts fcells (fcells_entry j ny (Z.of_nat i + Z.of_nat nx * (Z.of_nat j - 1)) (Z.of_nat i + Z.of_nat nx * Z.of_nat j));
    Some (fnodes, fnodepos, fcells))) s.
(** allocate_cart_grid_2d, cart_grid.c:505-538. *)
Definition ncells2 := nx * ny.
Definition nfaces2 := (nx + 1) * ny + nx * (ny + 1).
Definition nnodes2 := (nx + 1) * (ny + 1).
Definition sized2 (m : topo) : Prop :=
  length (t_cf m) = ncells2 * 4 ∧ length (t_cfpos m) = ncells2 + 1 ∧ length (t_tag m) = ncells2 * 4 ∧
  length (t_fn m) = nfaces2 * 2 ∧ length (t_fnpos m) = nfaces2 + 1 ∧ length (t_fc m) = 2 * nfaces2.
(** fill_cart_topology_2d, cart_grid.c:542-630. *)
Definition topology2 (m : topo) : option topo :=
  cfpos ← upd (t_cfpos m) 0 0;
  '(cf, cfpos) ← cells2 (open (t_cf m), open cfpos);
  tag ← tags2 (t_tag m);
  fnpos ← upd (t_fnpos m) 0 0;
  s ← xfaces2 (open (t_fn m), open fnpos, open (t_fc m));
  '(fn, fnpos, fc) ← yfaces2 s;
  Some (Topo (st_arr cf) (st_arr cfpos) tag (st_arr fn) (st_arr fnpos) (st_arr fc)).
End d2.

(** ** Geometry *)
Record geom := Geom {
  g_cc : list R; (* cell_centroids *) g_cv : list R; (* cell_volumes *)
  g_fn : list R; (* face_normals *) g_fc : list R; (* face_centroids *) g_fa : list R; (* face_areas *)
  g_nodes : list R (* node_coordinates *) }.

Local Open Scope R_scope.
Section g3.
Variables nx ny nz : nat.
Variables x y z : list R.
(** Reading x[i] and x[i+1]. *)
Definition two (x : list R) (i : nat) : option (R * R) := a ← x !! i; b ← x !! (i + 1)%nat; Some (a, b).

(** Loop at cart_grid.c:377-391. *)
Definition gcells3 (s : stream R * stream R) : option (stream R * stream R) :=
  for_loop nz 0 (λ k, for_loop ny 0 (λ j, for_loop nx 0 (λ i '(cc, cv),
    '(x0, x1) ← two x i; '(y0, y1) ← two y j; '(z0, z1) ← two z k;
    cc ← puts cc [(x0 + x1) / 2; (y0 + y1) / 2; (z0 + z1) / 2];
    cv ← puts cv [(x1 - x0) * (y1 - y0) * (z1 - z0)];
    Some (cc, cv)))) s.
Notation gst := (stream R * stream R * stream R)%type.
(** Loops at cart_grid.c:399-416, 418-435 and 437-454. *)
Definition gxfaces3 (s : gst) : option gst :=
  for_loop nz 0 (λ k, for_loop ny 0 (λ j, for_loop (nx + 1) 0 (λ i '(fn, fc, fa),
    x0 ← x !! i; '(y0, y1) ← two y j; '(z0, z1) ← two z k;
    fn ← puts fn [(y1 - y0) * (z1 - z0); 0; 0];
    fc ← puts fc [x0; (y0 + y1) / 2; (z0 + z1) / 2];
    fa ← puts fa [(y1 - y0) * (z1 - z0)];
    Some (fn, fc, fa)))) s.
Definition gyfaces3 (s : gst) : option gst :=
  for_loop nz 0 (λ k, for_loop (ny + 1) 0 (λ j, for_loop nx 0 (λ i '(fn, fc, fa),
    '(x0, x1) ← two x i; y0 ← y !! j; '(z0, z1) ← two z k;
    fn ← puts fn [0; (x1 - x0) * (z1 - z0); 0];
    fc ← puts fc [(x0 + x1) / 2; y0; (z0 + z1) / 2];
    fa ← puts fa [(x1 - x0) * (z1 - z0)];
    Some (fn, fc, fa)))) s.
Definition gzfaces3 (s : gst) : option gst :=
  for_loop (nz + 1) 0 (λ k, for_loop ny 0 (λ j, for_loop nx 0 (λ i '(fn, fc, fa),
    '(x0, x1) ← two x i; '(y0, y1) ← two y j; z0 ← z !! k;
    fn ← puts fn [0; 0; (x1 - x0) * (y1 - y0)];
    fc ← puts fc [(x0 + x1) / 2; (y0 + y1) / 2; z0];
    fa ← puts fa [(x1 - x0) * (y1 - y0)];
    Some (fn, fc, fa)))) s.
(** Loop at cart_grid.c:457-465. *)
Definition gnodes3 (s : stream R) : option (stream R) :=
  for_loop (nz + 1) 0 (λ k, for_loop (ny + 1) 0 (λ j, for_loop (nx + 1) 0 (λ i coord,
    x0 ← x !! i; y0 ← y !! j; z0 ← z !! k; puts coord [x0; y0; z0]))) s.
Definition gsized3 (m : geom) : Prop :=
  length (g_cc m) = (ncells3 nx ny nz * 3)%nat ∧ length (g_cv m) = ncells3 nx ny nz ∧
  length (g_fn m) = (nfaces3 nx ny nz * 3)%nat ∧ length (g_fc m) = (nfaces3 nx ny nz * 3)%nat ∧
  length (g_fa m) = nfaces3 nx ny nz ∧ length (g_nodes m) = (nnodes3 nx ny nz * 3)%nat.
(** fill_cart_geometry_3d, cart_grid.c:357-466. *)
Definition geometry3 (m : geom) : option geom :=
  '(cc, cv) ← gcells3 (open (g_cc m), open (g_cv m));
  s ← gxfaces3 (open (g_fn m), open (g_fc m), open (g_fa m));
  s ← gyfaces3 s;
  '(fn, fc, fa) ← gzfaces3 s;
  nodes ← gnodes3 (open (g_nodes m));
  Some (Geom (st_arr cc) (st_arr cv) (st_arr fn) (st_arr fc) (st_arr fa) (st_arr nodes)).
End g3.

Section g2.
Variables nx ny : nat.
Variables x y : list R.
(** Loop at cart_grid.c:653-663. *)
Definition gcells2 (s : stream R * stream R) : option (stream R * stream R) :=
  for_loop ny 0 (λ j, for_loop nx 0 (λ i '(cc, cv),
    '(x0, x1) ← two x i; '(y0, y1) ← two y j;
    cc ← puts cc [(x0 + x1) / 2; (y0 + y1) / 2];
    cv ← puts cv [(x1 - x0) * (y1 - y0)];
    Some (cc, cv))) s.
Notation gst := (stream R * stream R * stream R)%type.
(** Loops at cart_grid.c:672-684 and 687-699. *)
Definition gxfaces2 (s : gst) : option gst :=
  for_loop ny 0 (λ j, for_loop (nx + 1) 0 (λ i '(fn, fc, fa),
    x0 ← x !! i; '(y0, y1) ← two y j;
    fn ← puts fn [y1 - y0; 0]; fc ← puts fc [x0; (y0 + y1) / 2]; fa ← puts fa [y1 - y0];
    Some (fn, fc, fa))) s.
Definition gyfaces2 (s : gst) : option gst :=
  for_loop (ny + 1) 0 (λ j, for_loop nx 0 (λ i '(fn, fc, fa),
    '(x0, x1) ← two x i; y0 ← y !! j;
    fn ← puts fn [0; x1 - x0]; fc ← puts fc [(x0 + x1) / 2; y0]; fa ← puts fa [x1 - x0];
    Some (fn, fc, fa))) s.
(** Loop at cart_grid.c:702-707. *)
Definition gnodes2 (s : stream R) : option (stream R) :=
  for_loop (ny + 1) 0 (λ j, for_loop (nx + 1) 0 (λ i coord,
    x0 ← x !! i; y0 ← y !! j; puts coord [x0; y0])) s.
Definition gsized2 (m : geom) : Prop :=
  length (g_cc m) = (ncells2 nx ny * 2)%nat ∧ length (g_cv m) = ncells2 nx ny ∧
  length (g_fn m) = (nfaces2 nx ny * 2)%nat ∧ length (g_fc m) = (nfaces2 nx ny * 2)%nat ∧
  length (g_fa m) = nfaces2 nx ny ∧ length (g_nodes m) = (nnodes2 nx ny * 2)%nat.
(** fill_cart_geometry_2d, cart_grid.c:634-708. *)
Definition geometry2 (m : geom) : option geom :=
  '(cc, cv) ← gcells2 (open (g_cc m), open (g_cv m));
  s ← gxfaces2 (open (g_fn m), open (g_fc m), open (g_fa m));
  '(fn, fc, fa) ← gyfaces2 s;
  nodes ← gnodes2 (open (g_nodes m));
  Some (Geom (st_arr cc) (st_arr cv) (st_arr fn) (st_arr fc) (st_arr fa) (st_arr nodes)).
End g2.

(** The coordinates x[i] = i * dx of create_grid_hexa3d and create_grid_cart2d
    (cart_grid.c:73-75, 108-109). *)
Definition spaced (n : nat) (d : R) : list R := map (λ i, INR i * d) (seq 0 (n + 1)).
