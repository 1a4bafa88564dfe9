(** Model of opm/core/grid/cpgpreprocess/preprocess.c, last part: the input in
    the order of the columns, its orientation, nodes on faults, process_grdecl.

    Simplifications valid for the whole file:
    - doubles are real numbers; a division by zero is [None];
    - indices and counters are natural numbers or [Z], overflow is not modelled;
    - malloc and realloc are taken to succeed (process_grdecl does not check
      them), new memory has unknown content;
    - printed messages are left out. *)
From Coq Require Import Reals Lra.
From Verif Require Import Base LoopModel TableModel UniqModel PillarModel PrepModel VertModel.

(** The loops over j, i and k that write [*ptr++ = in[i + nx*(j + ny*k)]]. *)
Definition permute {A} (nx ny nz : nat) (inp : list A) (out : list A) : option (list A) :=
  '(out, _) ← for_loop ny 0 (λ j, for_loop nx 0 (λ i, for_loop nz 0 (λ k '(out, ptr),
    x ← inp !! (i + nx * (j + ny * k)); out ← upd out ptr x; Some (out, ptr + 1)))) (out, 0);
  Some out.
(** copy_and_permute_actnum, preprocess.c:501-532; [None] for [inp] is NULL. *)
Definition copy_and_permute_actnum (nx ny nz : nat) (inp : option (list Z)) (out : list Z) : option (list Z) :=
  match inp with
  | Some inp => permute nx ny nz inp out
  | None => for_loop (nx * ny * nz) 0 (λ i out, upd out i 1%Z) out
  end.
(** copy_and_permute_zcorn, preprocess.c:535-558; the factor is applied to the
    input beforehand. *)
Definition copy_and_permute_zcorn (nx ny nz : nat) (inp : list R) (sign : Z) (out : list R) : option (list R) :=
  permute (2 * nx) (2 * ny) (2 * nz) (map (Rmult (IZR sign)) inp) out.

(** One comparison of get_zcorn_sign, preprocess.c:586-605; the result is
    *error. *)
Definition sign_step (nx ny nz : nat) (actnum : option (list Z)) (zcorn : list R) (sign : Z) (i j k : nat) : option bool :=
  x1 ← zcorn !! (i + 2 * nx * (j + 2 * ny * k)); x2 ← zcorn !! (i + 2 * nx * (j + 2 * ny * (k + 1)));
  let z1 := (IZR sign * x1)%R in let z2 := (IZR sign * x2)%R in
  let c1 := i / 2 + nx * (j / 2 + ny * (k / 2)) in
  let c2 := i / 2 + nx * (j / 2 + ny * ((k + 1) / 2)) in
  if decide (c1 < nx * ny * nz ∧ c2 < nx * ny * nz) then
    both ← match actnum with
      | None => Some true
      | Some a => a1 ← a !! c1; if decide (a1 = 0)%Z then Some false else a2 ← a !! c2; Some (bool_decide (a2 ≠ 0)%Z)
      end;
    Some (if (both : bool) then (if Rlt_dec z2 z1 then true else false) else false)
  else None.
(** The loops, preprocess.c:580-609; after the jump to [end] nothing is done. *)
Definition sign_error (nx ny nz : nat) (actnum : option (list Z)) (zcorn : list R) (sign : Z) : option bool :=
  for_loop (2 * ny) 0 (λ j, for_loop (2 * nx) 0 (λ i, for_loop (2 * nz - 1) 0 (λ k error,
    if (error : bool) then Some true else sign_step nx ny nz actnum zcorn sign i j k))) false.
(** get_zcorn_sign, preprocess.c:561-621: the value returned and *error; the
    loop [for (sign = 1; sign>-2; sign = sign - 2)] is unrolled. *)
Definition get_zcorn_sign (nx ny nz : nat) (actnum : option (list Z)) (zcorn : list R) : option (Z * bool) :=
  e ← sign_error nx ny nz actnum zcorn 1;
  if (e : bool) then
    e ← sign_error nx ny nz actnum zcorn (-1);
    if (e : bool) then Some ((-3)%Z, true) else Some ((-1)%Z, false)
  else Some (1%Z, false).

(** vert_size, preprocess.c:645-668, with ind2sub, preprocess.c:625-641, and
    the offsets of preprocess.c:687-694. *)
Definition vert_size (nx ny nz : nat) (zcorn : list R) (c : nat) : option R :=
  if decide (c < nx * ny * nz) then
    let start := 2 * (c mod nx) + 2 * nx * (2 * ((c / nx) mod ny) + 2 * ny * (2 * ((c / nx) / ny))) in
    let off := [0; 1; 2 * nx; 2 * nx + 1] in
    for_loop 4 0 (λ k dz,
      if Rlt_dec 0 (Rabs dz) then Some dz else
      o ← off !! k;
      hi ← zcorn !! (start + (o + 2 * nx * (2 * ny)));
      lo ← zcorn !! (start + o);
      Some (hi - lo)%R) 0%R
  else None.
(** The loop of is_lefthanded, preprocess.c:709-719; [m] cells are left, from
    [c] on, the result is the first vertical size that is not zero. [None] also
    stands for the failed assertion of line 721. *)
Fixpoint search (m : nat) (nx ny nz : nat) (actnum : option (list Z)) (zcorn : list R) (c : nat) : option R :=
  match m with
  | 0 => None
  | S m =>
    active ← match actnum with None => Some true | Some a => x ← a !! c; Some (bool_decide (x ≠ 0)%Z) end;
    if (active : bool) then
      dz ← vert_size nx ny nz zcorn c;
      if Rlt_dec 0 (Rabs dz) then Some dz else search m nx ny nz actnum zcorn (c + 1)
    else search m nx ny nz actnum zcorn (c + 1)
  end.
(** is_lefthanded, preprocess.c:672-730. *)
Definition is_lefthanded (nx ny nz : nat) (actnum : option (list Z)) (coord zcorn : list R) : option bool :=
  let imax := nx * 6 in let jmax := (nx + 1) * ny * 6 in
  x0 ← coord !! 0; y0 ← coord !! 1;
  xi ← coord !! imax; yi ← coord !! (imax + 1);
  xj ← coord !! jmax; yj ← coord !! (jmax + 1);
  dz ← search (nx * ny * nz) nx ny nz actnum zcorn 0;
  let triple := (dz * ((xi - x0) * (yj - y0) - (xj - x0) * (yi - y0)))%R in
  if Rlt_dec 0 (Rabs triple) then Some (if Rlt_dec triple 0 then true else false) else None.

(** approximate_intersection_pt, preprocess.c:412-464: the point. *)
Definition approximate_intersection_pt (l0 l1 l2 l3 : nat) (c : list R) : option (list R) :=
  if decide (l0 ≠ l2 ∧ l1 ≠ l3) then
    z0 ← c !! (3 * l0 + 2); z1 ← c !! (3 * l1 + 2); z2 ← c !! (3 * l2 + 2); z3 ← c !! (3 * l3 + 2);
    let d := ((z1 - z0) - (z3 - z2))%R in
    let a := if Rlt_dec 0 (Rabs d) then ((z2 - z0) / d)%R else 0%R in
    let z := (z0 * (1 - a) + z1 * a)%R in
    b1 ← rdiv (z2 - z)%R (z2 - z0)%R; b2 ← rdiv (z - z0)%R (z2 - z0)%R;
    p0 ← c !! (3 * l0); p2 ← c !! (3 * l2); q0 ← c !! (3 * l0 + 1); q2 ← c !! (3 * l2 + 1);
    let x1 := (p0 * b1 + p2 * b2)%R in let y1 := (q0 * b1 + q2 * b2)%R in
    b1 ← rdiv (z - z3)%R (z1 - z3)%R; b2 ← rdiv (z1 - z)%R (z1 - z3)%R;
    p1 ← c !! (3 * l1); p3 ← c !! (3 * l3); q1 ← c !! (3 * l1 + 1); q3 ← c !! (3 * l3 + 1);
    let x2 := (p1 * b1 + p3 * b2)%R in let y2 := (q1 * b1 + q3 * b2)%R in
    Some [(x1 * (1 - a) + x2 * a)%R; (y1 * (1 - a) + y2 * a)%R; z]
  else None.
(** compute_intersection_coordinates, preprocess.c:468-498. *)
Definition compute_intersection_coordinates (junk : R) (n np : nat) (its : list Z) (coords : list R) : option (list R) :=
  for_loop (n - np) 0 (λ k coords,
    l ← slice its (4 * k) 4;
    match l with
    | [l0; l1; l2; l3] =>
      if decide (0 ≤ l0 ∧ 0 ≤ l1 ∧ 0 ≤ l2 ∧ 0 ≤ l3)%Z then
        pt ← approximate_intersection_pt (Z.to_nat l0) (Z.to_nat l1) (Z.to_nat l2) (Z.to_nat l3) coords;
        memcpy coords (3 * (np + k)) pt
      else None
    | _ => None
    end) (realloc_arr junk (3 * n) coords).

(** The swapping loop of reverse_face_nodes, preprocess.c:746-753; [i] and [j]
    are positions in face_nodes. *)
Fixpoint swap_ends (fuel i j : nat) (nodes : list Z) : option (list Z) :=
  if decide (i < j) then
    match fuel with
    | 0 => None
    | S fuel => x ← nodes !! i; y ← nodes !! j; nodes ← upd nodes i y; nodes ← upd nodes j x; swap_ends fuel (i + 1) (j - 1) nodes
    end
  else Some nodes.
(** reverse_face_nodes, preprocess.c:734-755; the assertion fails for a face
    without nodes. *)
Definition reverse_face_nodes (nf : nat) (ptr : list nat) (nodes : list Z) : option (list Z) :=
  for_loop nf 0 (λ f nodes,
    b ← ptr !! f; e ← ptr !! (f + 1);
    if decide (b < e) then swap_ends (e - b) b (e - 1) nodes else None) nodes.

(** [for (i = d; i < 3*n; i += 3) coords[i] = f(coords[i])], for reflections. *)
Definition each_coord (d n : nat) (f : R → R) (coords : list R) : option (list R) :=
  for_loop n 0 (λ i coords, x ← coords !! (3 * i + d); upd coords (3 * i + d) (f x)) coords.

Global Instance Rlt_decision : RelDecision Rlt := Rlt_dec.
(** The output of process_grdecl: faces, nodes and cells. *)
Record processed := Processed { o_g : pgrid; o_coords : list R; o_cells : nat; o_gci : list Z }.
(** The structure before the processing, preprocess.c:796-811, and the array
    intersections, preprocess.c:869; BIGNUM is 64. *)
Definition start_grid (junk : Z) (num : nat) : option pgrid :=
  ptr ← upd (replicate 22 0) 0 0;
  Some (PGrid 21 64 (replicate 64 junk) (replicate 64 junk) ptr (replicate 21 LEFT) 0 (replicate 64 junk) num num).
(** process_grdecl, preprocess.c:761-937; [qsort] sorts, [junk] and [junkr]
    fill new memory. The value returned by finduniquepoints is not looked at. *)
Definition process_grdecl (qsort : list R → list R) (junk : Z) (junkr : R) (nx ny nz : nat) (coord zcorn : list R) (actnum : option (list Z)) (tol : R) : option processed :=
  let nc := nx * ny * nz in
  act ← copy_and_permute_actnum nx ny nz actnum (replicate nc junk);
  '(sign, _) ← get_zcorn_sign nx ny nz actnum zcorn;
  zc ← copy_and_permute_zcorn nx ny nz zcorn sign (replicate (nc * 8) junkr);
  u ← finduniquepoints Rlt (λ z, (z + tol)%R) qsort interpolate_pillar junkr nx ny nz coord zc act (replicate (8 * (nc + nx * ny)) junk);
  lh ← is_lefthanded nx ny nz actnum coord zcorn;
  coords ← (if (lh : bool) then each_coord 1 (u_num u) Ropp (u_nodes u) else Some (u_nodes u));
  g ← start_grid junk (u_num u);
  work ← for_loop (4 * (nz + 1)) 0 (λ i work, upd work i (-1)%Z) (replicate (2 * (2 * nz + 2)) junk);
  '(g, work) ← process_vertical_faces junk 0 nx ny nz (u_plist u) work g;
  '(g, work) ← process_vertical_faces junk 1 nx ny nz (u_plist u) work g;
  '(g, cell, n) ← process_horizontal_faces junk nx ny nz (u_plist u) g (replicate nc junk);
  coords ← compute_intersection_coordinates junkr (g_nn g) (g_np g) (g_its g) coords;
  '(cell, gci, _) ← enumerate_cells nc cell (replicate nc junk);
  nbr ← remap (g_nf g) cell (g_nbr g);
  coords ← (if (lh : bool) then each_coord 1 (g_nn g) Ropp coords else Some coords);
  coords ← (if decide (sign = -1)%Z then each_coord 2 (g_nn g) (λ x, (x * IZR sign)%R) coords else Some coords);
  nodes ← (if xorb lh (bool_decide (sign = -1)%Z) then reverse_face_nodes (g_nf g) (g_ptr g) (g_nodes g) else Some (g_nodes g));
  Some (Processed (PGrid (g_m g) (g_n g) nbr nodes (g_ptr g) (g_tag g) (g_nf g) (g_its g) (g_nn g) (g_np g)) coords n gci).
