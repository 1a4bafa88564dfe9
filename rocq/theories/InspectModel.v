(** Model of opm/core/io/eclipse/EclipseGridInspector.cpp.

    Simplifications valid for the whole file: double is modelled by R, so that the
    floor of a quotient of doubles that hold ints is the quotient of the ints; indices
    are not negative; exceptions and divisions by 0 are [None]. *)
From Coq Require Import Reals.
From Verif Require Import Base LoopModel TableModel.
Local Open Scope R_scope.

(** The fields that are read; [gi_spec] tells whether the size comes from SPECGRID
    (else from DIMENS), EclipseGridInspector.cpp:52-77. *)
Record inspector := Inspector { gi_nx : nat; gi_ny : nat; gi_nz : nat; gi_coord : list R; gi_zcorn : list R; gi_spec : bool }.

(** cellIdxToLogicalCoords, EclipseGridInspector.cpp:176-193. *)
Definition idx_to_logical (g : inspector) (c : nat) : option (nat * nat * nat) :=
  let nx := gi_nx g in let nxy := (gi_nx g * gi_ny g)%nat in
  if decide (nxy = 0)%nat then None
  else
    let hor := ((c + 1) - (c + 1) / nxy * gi_nx g * gi_ny g)%nat in
    let hor := if decide (hor = 0)%nat then nxy else hor in
    let i := (hor - hor / nx * nx)%nat in
    let i := if decide (i = 0)%nat then nx else i in
    let j := ((hor - i) / nx + 1)%nat in
    let k := (((c + 1) - nx * (j - 1) - 1) / nxy + 1)%nat in
    Some ((i - 1)%nat, (j - 1)%nat, (k - 1)%nat).
(** checkLogicalCoords, EclipseGridInspector.cpp:249-257. *)
Definition in_box (g : inspector) (i j k : nat) : Prop := (i < gi_nx g)%nat ∧ (j < gi_ny g)%nat ∧ (k < gi_nz g)%nat.
Global Instance in_box_dec g i j k : Decision (in_box g i j k). Proof. unfold in_box. apply _. Defined.
(** The tests of the sizes, EclipseGridInspector.cpp:91-100 and 198-207. *)
Definition sizes_ok (g : inspector) : Prop := (6 * ((gi_nx g + 1) * (gi_ny g + 1)))%nat = length (gi_coord g) ∧ (8 * (gi_nx g * gi_ny g * gi_nz g))%nat = length (gi_zcorn g).
Global Instance sizes_ok_dec g : Decision (sizes_ok g). Proof. unfold sizes_ok. apply _. Defined.
(** cellZvals, EclipseGridInspector.cpp:313-332; also inside
    cellVolumeVerticalPillars, lines 225-233. *)
Definition cell_z (g : inspector) (i j k : nat) : option (list R) :=
  if decide ((8 * (gi_nx g * gi_ny g * gi_nz g))%nat = length (gi_zcorn g)) then
    let d0 := 1%nat in let d1 := (2 * gi_nx g)%nat in let d2 := (4 * gi_nx g * gi_ny g)%nat in
    let ix := (2 * (i * d0 + j * d1 + k * d2))%nat in
    mapM (λ d, gi_zcorn g !! (ix + d)%nat) [0; d0; d1; d1 + d0; d2; d2 + d0; d2 + d1; d2 + d1 + d0]%nat
  else None.
(** cellVolumeVerticalPillars, EclipseGridInspector.cpp:195-240. *)
Definition cell_volume (g : inspector) (i j k : nat) : option R :=
  if decide (in_box g i j k) then if decide (sizes_ok g) then
    let numx := (gi_nx g + 1)%nat in let pix := (i + j * numx)%nat in
    px ← mapM (λ p, gi_coord g !! (6 * p)%nat) [pix; pix + 1; pix + numx; pix + numx + 1]%nat;
    py ← mapM (λ p, gi_coord g !! (6 * p + 1)%nat) [pix; pix + 1; pix + numx; pix + numx + 1]%nat;
    z ← cell_z g i j k;
    match px, py, z with
    | [px0; px1; px2; px3], [py0; py1; py2; py3], [z0; z1; z2; z3; z4; z5; z6; z7] =>
        let area := /2 * ((px3 - px0) * (py2 - py1) - (py3 - py0) * (px2 - px1)) in
        let aver := /4 * (0 + (z4 - z0) + (z5 - z1) + (z6 - z2) + (z7 - z3)) in
        Some (aver * area)
    | _, _, _ => None
    end
  else None else None.

(** *min_element and *max_element. *)
Definition min_elem (l : list R) : option R := match l with [] => None | x :: l => Some (foldl Rmin x l) end.
Definition max_elem (l : list R) : option R := match l with [] => None | x :: l => Some (foldl Rmax x l) end.
(** [if (v > hi) hi = v; if (v < lo) lo = v]. *)
Definition widen (v : R) (st : R * R) : R * R := let '(lo, hi) := st in (if Rlt_dec v lo then v else lo, if Rlt_dec hi v then v else hi).
(** getGridLimits, EclipseGridInspector.cpp:260-300; [M] is DBL_MAX. *)
Definition grid_limits (M : R) (g : inspector) : option (R * R * (R * R) * (R * R)) :=
  if gi_spec g then
    '(xs, ys) ← for_loop ((gi_nx g + 1) * (gi_ny g + 1)) 0 (λ p st,
      let '(xs, ys) := (st : (R * R) * (R * R)) in
      x0 ← gi_coord g !! (p * 6 + 0)%nat; y0 ← gi_coord g !! (p * 6 + 1)%nat; x1 ← gi_coord g !! (p * 6 + 3)%nat; y1 ← gi_coord g !! (p * 6 + 4)%nat;
      Some (widen x1 (widen x0 xs), widen y1 (widen y0 ys))) ((M, - M), (M, - M));
    zmin ← min_elem (gi_zcorn g); zmax ← max_elem (gi_zcorn g);
    Some (xs, ys, (zmin, zmax))
  else None.
(** The rise along one edge and whether it counts, EclipseGridInspector.cpp:111-162:
    not if an end is at [lim]. *)
Definition rise (len lim a b : R) : option (R * nat) :=
  r ← rdiv (b - a) len; Some (if Req_EM_T b lim then (0, 0%nat) else if Req_EM_T a lim then (0, 0%nat) else (r, 1%nat)).
Definition mean_rise (l : list (R * nat)) : option R :=
  match l with
  | [(r0, n0); (r1, n1); (r2, n2); (r3, n3)] => rdiv (r0 + r1 + r2 + r3) (INR (n0 + n1 + n2 + n3))
  | _ => None
  end.
(** cellDips, EclipseGridInspector.cpp:88-166. *)
Definition cell_dips (M : R) (g : inspector) (i j k : nat) : option (R * R) :=
  if decide (in_box g i j k) then if decide (sizes_ok g) then
    z ← cell_z g i j k;
    let numx := (gi_nx g + 1)%nat in let pix := (i + j * numx)%nat in
    x1 ← gi_coord g !! (6 * (pix + 1))%nat; x0 ← gi_coord g !! (6 * pix)%nat;
    y1 ← gi_coord g !! (6 * (pix + numx) + 1)%nat; y0 ← gi_coord g !! (6 * pix + 1)%nat;
    '(_, _, (zmin, zmax)) ← grid_limits M g;
    match z with
    | [z0; z1; z2; z3; z4; z5; z6; z7] =>
        let xl := x1 - x0 in let yl := y1 - y0 in
        xr ← mapM (λ e : R * (R * R), rise xl (fst e) (fst (snd e)) (snd (snd e))) [(zmin, (z0, z1)); (zmin, (z2, z3)); (zmax, (z4, z5)); (zmax, (z6, z7))];
        yr ← mapM (λ e : R * (R * R), rise yl (fst e) (fst (snd e)) (snd (snd e))) [(zmin, (z0, z2)); (zmin, (z1, z3)); (zmax, (z4, z6)); (zmax, (z5, z7))];
        dx ← mean_rise xr; dy ← mean_rise yr; Some (dx, dy)
    | _ => None
    end
  else None else None.
