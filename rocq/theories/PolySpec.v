(** Polygons and polyhedra in space. *)
From Coq Require Import Reals.
From Verif Require Import Base GridModel GridSpec CartGeomProof TofSpec.
Local Open Scope R_scope.

(** The sides of a closed polygon, each from its start to its end. *)
Definition edges {A} (l : list A) : list (A * A) :=
  match l with [] => [] | p :: r => zip (p :: r) (r ++ [p]) end.
Definition mean (ps : list vec) : vec := vscale (/ INR (length ps)) (vsum ps).
Definition vlen (v : vec) : R := R_sqrt.sqrt (vdot v v).
(** Half the sum of the cross products of consecutive corners, whose length is
    the area if the polygon is flat. *)
Definition area_vector (ps : list vec) : vec :=
  vscale (1 / 2) (vsum (map (λ e, vcross e.1 e.2) (edges ps))).
(** The triangle of the side [e] of a polygon and a point [o]: area vector and
    centre. *)
Definition tri_vector (o : vec) (e : vec * vec) : vec := vscale (1 / 2) (vcross (vsub e.1 o) (vsub e.2 o)).
Definition tri_centre (o : vec) (e : vec * vec) : vec := vscale (1 / 3) (vadd o (vadd e.1 e.2)).
(** Area of the triangles between the sides and the mean of the corners. *)
Definition fan_area (ps : list vec) : R := rsum (λ e, vlen (tri_vector (mean ps) e)) (edges ps).
(** In a plane with unit normal [n], and every side runs counterclockwise around
    the mean of the corners. *)
Definition flat_star (n : vec) (ps : list vec) : Prop :=
  vdot n n = 1 ∧ (∃ d, ∀ p, p ∈ ps → vdot n p = d) ∧ ∀ e, e ∈ edges ps → 0 <= vdot n (tri_vector (mean ps) e).

(** Volume, with sign, of the tetrahedron with corners [o], [a], [b], [c], and
    its first moment. *)
Definition tet_volume (o a b c : vec) : R := vdot (vcross (vsub b a) (vsub c a)) (vsub a o) / 6.
Definition tet_centre (o a b c : vec) : vec := vscale (1 / 4) (vadd (vadd o a) (vadd b c)).

(** A face of a cell: its corners, in order, and whether the area vector points
    out of the cell. *)
Definition sided := (bool * list vec)%type.
Definition sgn (s : bool) : R := if s then 1 else -1.
(** Volume and first moment of the body bounded by the triangles between the
    sides of its faces and their means, from tetrahedra with apex [o]. *)
Definition body_volume (o : vec) (fs : list sided) : R :=
  rsum (λ f, sgn f.1 * rsum (λ e, tet_volume o (mean f.2) e.1 e.2) (edges f.2)) fs.
Definition body_moment (o : vec) (fs : list sided) : vec :=
  vsum (map (λ f, vscale (sgn f.1) (vsum (map (λ e,
    vscale (tet_volume o (mean f.2) e.1 e.2) (tet_centre o (mean f.2) e.1 e.2)) (edges f.2)))) fs).

(** Seen from outside, each side of a face is run through once in each
    direction: the surface has no boundary. *)
Definition around (s : bool) (ns : list nat) : list (nat * nat) :=
  if s then edges ns else map (λ e, (e.2, e.1)) (edges ns).
Definition closed (fs : list (bool * list nat)) : Prop :=
  let es := concat (map (λ f, around f.1 f.2) fs) in es ≡ₚ map (λ e, (e.2, e.1)) es.

(** ** In the arrays of a grid *)
Section grid.
Variable coords : list R.
Variables nodepos facenodes : list nat.
(** The numbers of the corners of face [f], and the points. *)
Definition corners (f : nat) (ns : list nat) : Prop :=
  ∃ b e, nodepos !! f = Some b ∧ nodepos !! S f = Some e ∧ (b <= e)%nat ∧ slice facenodes b (e - b) = Some ns.
Definition polygon (f : nat) (ps : list vec) : Prop :=
  ∃ ns, corners f ns ∧ Forall2 (at3 coords) ns ps.
End grid.

(** ** In the plane *)
Definition vcross2 (u v : vec2) : R := u.1 * v.2 - u.2 * v.1.
Definition mean2 (ps : list vec2) : vec2 := (rsum fst ps / INR (length ps), rsum snd ps / INR (length ps)).
(** Area with sign, positive if the corners run counterclockwise, and first
    moments of the polygon. *)
Definition shoelace (ps : list vec2) : R := 1 / 2 * rsum (λ e, vcross2 e.1 e.2) (edges ps).
Definition moment2 (ps : list vec2) : vec2 :=
  (1 / 6 * rsum (λ e, vcross2 e.1 e.2 * (e.1.1 + e.2.1)) (edges ps), 1 / 6 * rsum (λ e, vcross2 e.1 e.2 * (e.1.2 + e.2.2)) (edges ps)).
(** Every side is seen counterclockwise from the mean of the corners. *)
Definition star2 (ps : list vec2) : Prop := ∀ e, e ∈ edges ps → 0 <= vcross2 (vsub2 e.1 (mean2 ps)) (vsub2 e.2 (mean2 ps)).
Definition flip {A} (s : bool) (e : A * A) : A * A := if s then e else (e.2, e.1).
(** The faces [row] with ends [nd], turned around where [h] says so, are the
    sides of the polygon [ns]. *)
Definition outline (nd : nat → nat * nat) (h : nat → bool) (row ns : list nat) : Prop := map (λ f, flip (h f) (nd f)) row ≡ₚ edges ns.

(** ** Grids of polyhedra *)
(** Cell [c] is the first cell of face [f]. *)
Definition side (g : ugrid) (c f : nat) : bool := bool_decide (u_facecells g !! (2 * f)%nat = Some (Z.of_nat c)).
Definition cell_sides (g : ugrid) (poly : nat → list vec) (c : nat) (row : list nat) : list sided :=
  map (λ f, (side g c f, poly f)) row.
(** No triangle of the face is turned against the normal of the face. *)
Definition aligned (ps : list vec) : Prop := ∀ e, e ∈ edges ps → 0 <= vdot (tri_vector (mean ps) e) (area_vector ps).
(** The faces with a cell on one side only, seen from outside. *)
Definition outer_sides (g : ugrid) (poly : nat → list vec) : list sided :=
  concat (map (λ f, match u_facecells g !! (2 * f)%nat, u_facecells g !! (2 * f + 1)%nat with
    | Some a, Some b =>
        if decide (a = (-1)%Z) then (if decide (b = (-1)%Z) then [] else [(false, poly f)])
        else (if decide (b = (-1)%Z) then [(true, poly f)] else [])
    | _, _ => []
    end) (seq 0 (u_nf g))).
(** The edges with a cell on one side only, run through counterclockwise. *)
Definition outer_edges (g : ugrid) (nd : nat → nat * nat) : list (nat * nat) :=
  concat (map (λ f, match u_facecells g !! (2 * f)%nat, u_facecells g !! (2 * f + 1)%nat with
    | Some a, Some b =>
        if decide (a = (-1)%Z) then (if decide (b = (-1)%Z) then [] else [flip false (nd f)])
        else (if decide (b = (-1)%Z) then [flip true (nd f)] else [])
    | _, _ => []
    end) (seq 0 (u_nf g))).
