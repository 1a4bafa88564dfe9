(** Model of opm/core/pressure/FlowBCManager.cpp on top of flow_bc.c (AppendModel.v).

    Simplifications valid for the whole file: double is modelled by R; an exception,
    a failed assertion, a division by 0 and undefined behaviour are [None], but the
    exception thrown when memory runs out is [false] together with the state left
    behind. *)
From Coq Require Import Reals.
From Verif Require Import Base LoopModel TableModel AppendModel.
Local Open Scope R_scope.

(** enum FlowBCType, flow_bc.h:29-31. *)
Inductive bctype := BC_NOFLOW | BC_PRESSURE | BC_FLUX_TOTVOL.
(** The members of struct UnstructuredGrid that are read (grid.h): dimensions,
    cartdims, global_cell, number_of_cells, cell_facepos, cell_faces, cell_facetag,
    face_cells, face_areas. *)
Record tgrid := TGrid { tg_dim : nat; tg_cart : list nat; tg_gc : option (list nat); tg_nc : nat; tg_pos : list nat; tg_faces : list nat;
  tg_tag : option (list Z); tg_cells : list Z; tg_area : list R }.

(** cartCoord, FlowBCManager.cpp:173-187. *)
Definition cart_coord (ndims ix : nat) (dims ijk : list nat) : option (list nat) :=
  st ← for_loop ndims 0 (λ dim st,
    let '(ijk, ix) := (st : list nat * nat) in
    n ← dims !! dim;
    if decide (n = 0)%nat then None else ijk ← upd ijk dim (ix mod n)%nat; Some (ijk, (ix / n)%nat)) (ijk, ix);
  let '(ijk, ix) := st in if decide (ix = 0)%nat then Some ijk else None.
(** One half-face, FlowBCManager.cpp:222-233. *)
Definition side_face (tag : list Z) (g : tgrid) (side hf : nat) (faces : list nat) : option (list nat) :=
  t ← tag !! hf;
  if decide (t = Z.of_nat side) then
    f ← tg_faces g !! hf; a ← tg_cells g !! (2 * f)%nat; b ← tg_cells g !! (2 * f + 1)%nat;
    if decide (a = (-1)%Z ∨ b = (-1)%Z) then Some (faces ++ [f]) else None
  else Some faces.
(** findSideFaces, FlowBCManager.cpp:197-236; -1 in ijk is 0 here: elements that
    cartCoord does not set are not read as side/2 is below the dimension. *)
Definition find_side (g : tgrid) (side : nat) : option (list nat) :=
  match tg_tag g with
  | None => None
  | Some tag =>
      if decide (tg_dim g <= 3)%nat then if decide (side < 2 * tg_dim g)%nat then
        n ← tg_cart g !! (side / 2)%nat;
        let correct := if decide (side mod 2 = 1)%nat then (Z.of_nat n - 1)%Z else 0%Z in
        for_loop (tg_nc g) 0 (λ c faces,
          gc ← match tg_gc g with None => Some c | Some l => l !! c end;
          ijk ← cart_coord (tg_dim g) gc (tg_cart g) [0; 0; 0]%nat;
          x ← ijk !! (side / 2)%nat;
          if decide (Z.of_nat x ≠ correct) then Some faces
          else lo ← tg_pos g !! c; hi ← tg_pos g !! (c + 1)%nat; for_loop (hi - lo) lo (side_face tag g side) faces) []
      else None else None
  end.

Section manager.
Variables (jt : bctype) (jv : R) (jn : nat) (jz : Z).
(** append, FlowBCManager.cpp:76-84. *)
Definition bcm_append (ty : bctype) (face : nat) (v : R) (s : fbc R bctype) (o : list bool) := fbc_append jt jv jn jz ty [Z.of_nat face] v s o.
(** pressureSide, FlowBCManager.cpp:93-103.  &faces[0] of an empty vector is
    undefined. *)
Definition pressure_side (g : tgrid) (side : nat) (p : R) (s : fbc R bctype) (o : list bool) : option (bool * fbc R bctype * list bool) :=
  faces ← find_side g side;
  match faces with [] => None | _ => fbc_append jt jv jn jz BC_PRESSURE (map Z.of_nat faces) p s o end.
(** The second loop of fluxSide, FlowBCManager.cpp:131-137. *)
Fixpoint append_fluxes (g : tgrid) (flux tot : R) (faces : list nat) (s : fbc R bctype) (o : list bool) : option (bool * fbc R bctype * list bool) :=
  match faces with
  | [] => Some (true, s, o)
  | f :: faces =>
      a ← tg_area g !! f; v ← rdiv (flux * a) tot;
      '(ok, s, o) ← fbc_append jt jv jn jz BC_FLUX_TOTVOL [Z.of_nat f] v s o;
      if ok : bool then append_fluxes g flux tot faces s o else Some (false, s, o)
  end.
(** fluxSide, FlowBCManager.cpp:116-138. *)
Definition flux_side (g : tgrid) (side : nat) (flux : R) (s : fbc R bctype) (o : list bool) : option (bool * fbc R bctype * list bool) :=
  faces ← find_side g side;
  tot ← for_loop (length faces) 0 (λ i tot, f ← faces !! i; a ← tg_area g !! f; Some (tot + a)) 0;
  append_fluxes g flux tot faces s o.
End manager.
