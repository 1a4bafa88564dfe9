(** Model of opm/core/grid/cpgpreprocess/preprocess.c, first part: memory of the
    grid under construction, horizontal faces, and the final renumbering.

    Simplifications valid for the whole file:
    - indices and counters are natural numbers or [Z], int overflow is not
      modelled;
    - malloc and realloc are taken to succeed (process_vertical_faces and
      process_horizontal_faces leave the program otherwise); new memory has
      unknown content. *)
From Verif Require Import Base LoopModel UniqModel.

(** enum face_tag, preprocess.h:67-71. *)
Inductive ftag := LEFT | BACK | TOP.
Global Instance ftag_eq_dec : EqDecision ftag. Proof. solve_decision. Defined.

(** The members of struct processed_grid (preprocess.h:78-108) that are written
    here, together with the array intersections of process_grdecl. *)
Record pgrid := PGrid {
  g_m : nat; g_n : nat;
  g_nbr : list Z; g_nodes : list Z; g_ptr : list nat; g_tag : list ftag;
  g_nf : nat; g_its : list Z; g_nn : nat; g_np : nat }.

(** linearindex, preprocess.c:68-80; the assertions are the condition. *)
Definition linearindex (nx ny nz i j k : nat) : option nat :=
  if decide (i < nx ∧ j < ny ∧ k < nz) then Some (i + nx * (j + ny * k)) else None.

(** preprocess.c:151-156: [if (need > cur) { cur += MAX(cur / 2, step); }]. *)
Definition grow (cur need step : nat) : nat := if decide (cur < need) then cur + Nat.max (cur / 2) step else cur.
(** checkmemory, preprocess.c:137-190. *)
Definition checkmemory (junk : Z) (nz : nat) (g : pgrid) : option pgrid :=
  let r := (2 * nz + 2) * (2 * nz + 2) in
  let m := grow (g_m g) (g_nf g + r) (2 * r) in
  p ← g_ptr g !! g_nf g;
  let n := grow (g_n g) (p + 6 * r) (12 * r) in
  let g := if decide (m = g_m g) then g else
    PGrid m (g_n g) (realloc_arr junk (2 * m) (g_nbr g)) (g_nodes g) (realloc_arr 0 (m + 1) (g_ptr g)) (realloc_arr LEFT m (g_tag g))
      (g_nf g) (realloc_arr junk (4 * m) (g_its g)) (g_nn g) (g_np g) in
  let g := if decide (n = g_n g) then g else
    PGrid (g_m g) n (g_nbr g) (realloc_arr junk n (g_nodes g)) (g_ptr g) (g_tag g) (g_nf g) (g_its g) (g_nn g) (g_np g) in
  Some g.

(** "Add face", e.g. preprocess.c:363-375 and facetopology.c:271-283: the nodes
    are written at [f], the neighbours at [c], and the end of the nodes is
    recorded. The statements are in a different order in the code. *)
Definition put_face (g : pgrid) (f c : nat) (a b : Z) (ns : list Z) : option pgrid :=
  nbr ← memcpy (g_nbr g) c [a; b];
  nodes ← memcpy (g_nodes g) f ns;
  ptr ← upd (g_ptr g) (g_nf g + 1) (f + length ns);
  Some (PGrid (g_m g) (g_n g) nbr nodes ptr (g_tag g) (g_nf g + 1) (g_its g) (g_nn g) (g_np g)).
(** [out->face_tag[k] = t]. *)
Definition put_tag (g : pgrid) (k : nat) (t : ftag) : option pgrid :=
  tag ← upd (g_tag g) k t;
  Some (PGrid (g_m g) (g_n g) (g_nbr g) (g_nodes g) (g_ptr g) tag (g_nf g) (g_its g) (g_nn g) (g_np g)).

(** The state of the loop over [k] of process_horizontal_faces. *)
Record hstate := HState { h_g : pgrid; h_f : nat; h_n : nat; h_prev : Z; h_cell : list Z; h_cellno : nat }.
(** [c[0][k]], [c[2][k]], [c[3][k]], [c[1][k]]; [pos] are the places of c[0] to c[3] in plist. *)
Definition level (plist : list Z) (pos : list nat) (k : nat) : option (list Z) :=
  match pos with
  | [p0; p1; p2; p3] =>
    x0 ← plist !! (p0 + k); x2 ← plist !! (p2 + k); x3 ← plist !! (p3 + k); x1 ← plist !! (p1 + k);
    Some [x0; x2; x3; x1]
  | _ => None
  end.
(** One pass of the loop over [k], preprocess.c:346-396. All of the eight
    values compared are read here; the code stops at the first difference. *)
Definition horizontal_step (nx ny nz : nat) (plist : list Z) (pos : list nat) (i j k : nat) (s : hstate) : option hstate :=
  q ← level plist pos k;
  q' ← level plist pos (k + 1);
  if decide (q = q') then
    if decide (k mod 2 = 1) then
      idx ← linearindex nx ny nz i j ((k - 1) / 2);
      cell ← upd (h_cell s) idx (-1)%Z;
      Some (HState (h_g s) (h_f s) (h_n s) (h_prev s) cell (h_cellno s))
    else Some s
  else if decide (k mod 2 = 1) then
    idx ← linearindex nx ny nz i j ((k - 1) / 2);
    g ← put_tag (h_g s) (g_nf (h_g s)) TOP;
    g ← put_face g (h_f s) (h_n s) (h_prev s) (Z.of_nat idx) q;
    cell ← upd (h_cell s) idx (Z.of_nat (h_cellno s));
    Some (HState g (h_f s + 4) (h_n s + 2) (Z.of_nat idx) cell (h_cellno s + 1))
  else if decide (h_prev s = -1)%Z then Some s
  else
    g ← put_tag (h_g s) (g_nf (h_g s)) TOP;
    g ← put_face g (h_f s) (h_n s) (h_prev s) (-1) q;
    Some (HState g (h_f s + 4) (h_n s + 2) (-1) (h_cell s) (h_cellno s)).
(** One column, preprocess.c:323-396. *)
Definition horizontal_column (junk : Z) (nx ny nz : nat) (plist : list Z) (i j : nat) (s : pgrid * list Z * nat) : option (pgrid * list Z * nat) :=
  let '(g, cell, cellno) := s in
  g ← checkmemory junk nz g;
  f ← g_ptr g !! g_nf g;
  let pos := vector_positions (2 * nx) (2 * ny) (2 + 2 * nz) (2 * i + 1) (2 * j + 1) in
  s ← for_loop (2 * nz) 1 (horizontal_step nx ny nz plist pos i j) (HState g f (2 * g_nf g) (-1) cell cellno);
  Some (h_g s, h_cell s, h_cellno s).
(** process_horizontal_faces, preprocess.c:300-401; the result is the grid, the
    array local_cell_index and number_of_cells. *)
Definition process_horizontal_faces (junk : Z) (nx ny nz : nat) (plist : list Z) (g : pgrid) (cell : list Z) : option (pgrid * list Z * nat) :=
  for_loop ny 0 (λ j, for_loop nx 0 (λ i, horizontal_column junk nx ny nz plist i j)) (g, cell, 0).

(** The loop "Enumerate compressed cells" of process_grdecl,
    preprocess.c:894-901: local_cell_index, global_cell_index, cellnum. *)
Definition enumerate_cells (nc : nat) (cell : list Z) (gci : list Z) : option (list Z * list Z * nat) :=
  for_loop nc 0 (λ i '(cell, gci, cellnum),
    v ← cell !! i;
    if decide (v = -1)%Z then Some (cell, gci, cellnum) else
    gci ← upd gci cellnum (Z.of_nat i);
    cell ← upd cell i (Z.of_nat cellnum);
    Some (cell, gci, cellnum + 1)) (cell, gci, 0).
(** The loop "Remap out->face_neighbors", preprocess.c:903-909; a subscript
    below zero is undefined. *)
Definition remap (nf : nat) (cell : list Z) (nbr : list Z) : option (list Z) :=
  for_loop (2 * nf) 0 (λ i nbr,
    v ← nbr !! i;
    if decide (v = -1)%Z then Some nbr else
    if decide (v < 0)%Z then None else
    w ← cell !! Z.to_nat v;
    upd nbr i w) nbr.
