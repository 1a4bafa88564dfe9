(** Model of opm/core/grid/cpgpreprocess/facetopology.c and of the vertical part
    of preprocess.c. Simplifications as in PrepModel.v. The printed messages are
    left out. *)
From Verif Require Import Base LoopModel UniqModel PrepModel.

(** LINE_INTERSECTION, facetopology.c:184-186. *)
Definition line_intersection (a1 a2 b1 b2 : Z) : bool :=
  bool_decide ((b1 < a1 ∧ a2 < b2) ∨ (a1 < b1 ∧ b2 < a2))%Z.
(** faceintersection, facetopology.c:188-197; a pair holds the entries 0 and 1
    that are read through a pointer. *)
Definition faceintersection (a1 a2 b1 b2 : Z * Z) : bool :=
  bool_decide (Z.max a1.1 b1.1 < Z.min a1.2 b1.2)%Z ||
  bool_decide (Z.max a2.1 b2.1 < Z.min a2.2 b2.2)%Z ||
  line_intersection a1.1 a2.1 b1.1 b2.1 ||
  line_intersection a1.2 a2.2 b1.2 b2.2.

(** computeFaceTopology, facetopology.c:64-156: the nodes written. *)
Definition compute_face_topology (a1 a2 b1 b2 : Z * Z) (i0 i1 i2 i3 : Z) : list Z :=
  let m0 := if decide (b1.2 < a1.2)%Z then b1.2 else a1.2 in
  let m2 := if decide (b2.2 < a2.2)%Z then b2.2 else a2.2 in
  let m4 := if decide (b2.1 < a2.1)%Z then a2.1 else b2.1 in
  let m6 := if decide (b1.1 < a1.1)%Z then a1.1 else b1.1 in
  let m6 := if decide (m0 = m6) then (-1)%Z else m6 in
  let m4 := if decide (m2 = m4) then (-1)%Z else m4 in
  let '(m0, m2, m3, m4, m6, m7) :=
    if decide (i1 = -1)%Z then (m0, m2, (-1)%Z, m4, m6, (-1)%Z)
    else if decide (b1.2 < a1.1)%Z then ((-1)%Z, m2, (-1)%Z, m4, (-1)%Z, i1)
    else (m0, (-1)%Z, i1, (-1)%Z, m6, (-1)%Z) in
  let '(m0, m2, m3, m4, m6, m7) :=
    if decide (i2 = -1)%Z then (m0, m2, m3, m4, m6, m7)
    else if decide (a1.2 < b1.1)%Z then ((-1)%Z, m2, m3, m4, (-1)%Z, i2)
    else (m0, (-1)%Z, i2, (-1)%Z, m6, m7) in
  filter (λ v, v ≠ (-1)%Z) [m7; m6; i0; m4; m3; m2; i3; m0].

(** The nodes of completely matching faces, facetopology.c:276-281. *)
Definition matching_nodes (a1 a2 : Z * Z) : list Z :=
  [a1.1; a2.1] ++ (if decide (a2.2 = a2.1) then [] else [a2.2]) ++ (if decide (a1.2 = a1.1) then [] else [a1.2]).

(** MEANINGFUL_FACE, facetopology.c:200-202. *)
Definition meaningful (a1 b1 : Z * Z) : bool :=
  negb (bool_decide (a1.1 = int_min ∧ b1.1 = int_min)) && negb (bool_decide (a1.2 = int_max ∧ b1.2 = int_max)).
(** [i%2 != 0 ? (i-1)/2 : -1]. *)
Definition cell_of (i : nat) : Z := if decide (i mod 2 = 0) then (-1)%Z else Z.of_nat ((i - 1) / 2).

(** The variables of findconnections: the grid, [f] and [c] as positions in
    face_nodes and face_neighbors, the position in intersections, itop, ibottom
    and whether they are exchanged in [work], [j], [k1], [k2]. *)
Record fstate := FState {
  fs_g : pgrid; fs_f : nat; fs_c : nat; fs_ip : nat;
  fs_top : list Z; fs_bot : list Z; fs_sw : bool; fs_j : nat; fs_k1 : nat; fs_k2 : nat }.

(** "Add face to list of faces": facetopology.c:266-289 and 320-342. *)
Definition emit (i : nat) (a1 b1 : Z * Z) (ns : list Z) (s : fstate) : option fstate :=
  if meaningful a1 b1 && negb (bool_decide (cell_of i = (-1)%Z ∧ cell_of (fs_j s) = (-1)%Z)) then
    g ← put_face (fs_g s) (fs_f s) (fs_c s) (cell_of i) (cell_of (fs_j s)) ns;
    Some (FState g (fs_f s + length ns) (fs_c s + 2) (fs_ip s) (fs_top s) (fs_bot s) (fs_sw s) (fs_j s) (fs_k1 s) (fs_k2 s))
  else Some s.
(** "Find new intersection", facetopology.c:296-309. *)
Definition new_intersection (a1 a2 b1 b2 : Z * Z) (s : fstate) : option fstate :=
  if line_intersection a1.2 a2.2 b1.2 b2.2 then
    top ← upd (fs_top s) (fs_j s + 1) (Z.of_nat (g_nn (fs_g s)));
    its ← memcpy (g_its (fs_g s)) (fs_ip s) [a1.2; a2.2; b1.2; b2.2];
    let g := fs_g s in
    Some (FState (PGrid (g_m g) (g_n g) (g_nbr g) (g_nodes g) (g_ptr g) (g_tag g) (g_nf g) its (g_nn g + 1) (g_np g))
      (fs_f s) (fs_c s) (fs_ip s + 4) top (fs_bot s) (fs_sw s) (fs_j s) (fs_k1 s) (fs_k2 s))
  else
    top ← upd (fs_top s) (fs_j s + 1) (-1)%Z;
    Some (FState (fs_g s) (fs_f s) (fs_c s) (fs_ip s) top (fs_bot s) (fs_sw s) (fs_j s) (fs_k1 s) (fs_k2 s)).

(** A vector of point numbers starts at position [p] of plist. *)
Definition ends (plist : list Z) (p k : nat) : option (Z * Z) := x ← plist !! (p + k); y ← plist !! (p + (k + 1)); Some (x, y).

(** A pair of faces that intersect, facetopology.c:263-343. *)
Definition connect (i : nat) (a1 a2 b1 b2 : Z * Z) (s : fstate) : option fstate :=
  if decide (a1 = b1 ∧ a2 = b2) then emit i a1 b1 (matching_nodes a1 a2) s
  else
    s ← new_intersection a1 a2 b1 b2 s;
    i0 ← fs_bot s !! fs_j s; i1 ← fs_bot s !! (fs_j s + 1);
    i2 ← fs_top s !! fs_j s; i3 ← fs_top s !! (fs_j s + 1);
    emit i a1 b1 (compute_face_topology a1 a2 b1 b2 i0 i1 i2 i3) s.

(** The body of the while loop, facetopology.c:247-350. *)
Definition inner_step (plist : list Z) (p0 p1 p2 p3 i : nat) (s : fstate) : option fstate :=
  a1 ← ends plist p0 i; a2 ← ends plist p1 i;
  b1 ← ends plist p2 (fs_j s); b2 ← ends plist p3 (fs_j s);
  if decide (b1.1 = b1.2 ∧ b2.1 = b2.2) then
    t ← fs_top s !! fs_j s;
    top ← upd (fs_top s) (fs_j s + 1) t;
    Some (FState (fs_g s) (fs_f s) (fs_c s) (fs_ip s) top (fs_bot s) (fs_sw s) (fs_j s + 1) (fs_k1 s) (fs_k2 s))
  else
    s ← (if faceintersection a1 a2 b1 b2 then connect i a1 a2 b1 b2 s else Some s);
    Some (FState (fs_g s) (fs_f s) (fs_c s) (fs_ip s) (fs_top s) (fs_bot s) (fs_sw s) (fs_j s + 1)
      (if decide (b1.1 < a1.2)%Z then fs_j s else fs_k1 s) (if decide (b2.1 < a2.2)%Z then fs_j s else fs_k2 s)).
(** The while loop, facetopology.c:242-351; [fuel] bounds the number of passes
    and is [n] below, [j] grows in every pass. *)
Fixpoint inner (fuel n : nat) (plist : list Z) (p0 p1 p2 p3 i : nat) (s : fstate) : option fstate :=
  match fuel with
  | 0 => None
  | S fuel =>
    if decide (fs_j s < n - 1) then
      x1 ← plist !! (p2 + fs_j s); y1 ← plist !! (p0 + (i + 1));
      x2 ← plist !! (p3 + fs_j s); y2 ← plist !! (p1 + (i + 1));
      if decide (x1 < y1 ∨ x2 < y2)%Z then s ← inner_step plist p0 p1 p2 p3 i s; inner fuel n plist p0 p1 p2 p3 i s
      else Some s
    else Some s
  end.
(** The body of the for loop, facetopology.c:233-364. *)
Definition outer_step (n : nat) (plist : list Z) (p0 p1 p2 p3 i : nat) (s : fstate) : option fstate :=
  a1 ← ends plist p0 i; a2 ← ends plist p1 i;
  if decide (a1.1 = a1.2 ∧ a2.1 = a2.2) then Some s
  else
    s ← inner n n plist p0 p1 p2 p3 i s;
    top ← for_loop n 0 (λ j top, upd top j (-1)%Z) (fs_bot s);
    Some (FState (fs_g s) (fs_f s) (fs_c s) (fs_ip s) top (fs_top s) (negb (fs_sw s)) (Nat.min (fs_k1 s) (fs_k2 s)) (fs_k1 s) (fs_k2 s)).
(** findconnections, facetopology.c:206-365: [p0] to [p3] are pts, [ip] is
    intersectionlist; the result is the grid and the array work. *)
Definition findconnections (n : nat) (plist : list Z) (p0 p1 p2 p3 ip : nat) (work : list Z) (g : pgrid) : option (pgrid * list Z) :=
  f ← g_ptr g !! g_nf g;
  top ← slice work 0 n; bot ← slice work n n;
  s ← for_loop (n - 1) 0 (outer_step n plist p0 p1 p2 p3) (FState g f (2 * g_nf g) ip top bot false 0 0 0);
  Some (fs_g s, if fs_sw s then fs_bot s ++ fs_top s else fs_top s ++ fs_bot s).

(** compute_cell_index, preprocess.c:114-134; [nbr] from position [p], [m] is
    half of [len], rounded up. *)
Definition compute_cell_index (nx ny nz : nat) (i j : Z) (p m : nat) (nbr : list Z) : option (list Z) :=
  if decide ((i < 0 ∨ Z.of_nat nx ≤ i) ∨ (j < 0 ∨ Z.of_nat ny ≤ j))%Z then for_loop m 0 (λ k nbr, upd nbr (p + 2 * k) (-1)%Z) nbr
  else for_loop m 0 (λ k nbr,
    v ← nbr !! (p + 2 * k);
    if decide (v = -1)%Z then Some nbr else
    if decide (v < 0)%Z then None else
    c ← linearindex nx ny nz (Z.to_nat i) (Z.to_nat j) (Z.to_nat v);
    upd nbr (p + 2 * k) (Z.of_nat c)) nbr.

Definition set_nbr (g : pgrid) (nbr : list Z) : pgrid := PGrid (g_m g) (g_n g) nbr (g_nodes g) (g_ptr g) (g_tag g) (g_nf g) (g_its g) (g_nn g) (g_np g).
(** One pair of pillars, preprocess.c:232-283; [dir] is 0 or 1. *)
Definition vertical_pair (junk : Z) (dir nx ny nz : nat) (plist : list Z) (i j : nat) (s : pgrid * list Z) : option (pgrid * list Z) :=
  let '(g, work) := s in
  g ← checkmemory junk nz g;
  match vector_positions (2 * nx) (2 * ny) (2 * (nz + 1)) (2 * i + dir) (2 * j + (1 - dir)) with
  | [q0; q1; q2; q3] =>
    let '(q0, q1, q2, q3) := if decide (dir = 1) then (q2, q0, q3, q1) else (q0, q1, q2, q3) in
    let startface := g_nf g in
    '(g, work) ← findconnections (2 * nz + 2) plist q0 q1 q2 q3 (4 * (g_nn g - g_np g)) work g;
    nbr ← compute_cell_index nx ny nz (Z.of_nat i - 1 + Z.of_nat dir) (Z.of_nat j - Z.of_nat dir) (2 * startface) (g_nf g - startface) (g_nbr g);
    nbr ← compute_cell_index nx ny nz (Z.of_nat i) (Z.of_nat j) (2 * startface + 1) (g_nf g - startface) nbr;
    g ← for_loop (g_nf g - startface) startface (λ f g, put_tag g f (if decide (dir = 0) then LEFT else BACK)) (set_nbr g nbr);
    Some (g, work)
  | _ => None
  end.
(** process_vertical_faces, preprocess.c:203-286. *)
Definition process_vertical_faces (junk : Z) (dir nx ny nz : nat) (plist work : list Z) (g : pgrid) : option (pgrid * list Z) :=
  for_loop (ny + dir) 0 (λ j, for_loop (nx + (1 - dir)) 0 (λ i, vertical_pair junk dir nx ny nz plist i j)) (g, work).
