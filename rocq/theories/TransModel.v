(** Model of opm/core/pressure/tpfa/trans_tpfa.c.  Doubles are real numbers;
    division by zero (an infinity in the code), a failed assertion and access
    out of bounds are [None]. *)
From Coq Require Import Reals.
From Verif Require Import Base GridModel LoopModel TableModel AccModel.
Local Open Scope R_scope.

(** The geometric part of struct UnstructuredGrid (opm/core/grid.h:87-235):
    dimensions, face_centroids, face_normals, cell_centroids. *)
Record ugeom := UGeom { ge_d : nat; ge_fc : list R; ge_n : list R; ge_cc : list R }.

(** dgemv_("No Transpose", d, d, 1.0, K, d, n, 1, 0.0, Kn, 1): row [i] of the
    product of the column-major matrix [K] with [n]. *)
Definition dgemv_row (d : nat) (K n : list R) (i : nat) : R :=
  foldr Rplus 0 (map (λ j, default 0 (K !! (i + j * d)%nat) * default 0 (n !! j)) (seq 0 d)).

Section trans.
Variable g : ugrid.
Variable ge : ugeom.

(** Loop over the coordinates, trans_tpfa.c:47-53: htrans[i] and denom. *)
Definition htrans_dim (s : R) (K n fc cc : list R) (j : nat) (hd : R * R) : option (R * R) :=
  x ← fc !! j; y ← cc !! j;
  let dist := x - y in
  Some (hd.1 + s * dist * dgemv_row (ge_d ge) K n j, hd.2 + dist * dist).
(** Body of the inner loop, trans_tpfa.c:38-57.  The local array Kn has three
    entries, so more than three dimensions are undefined. *)
Definition htrans_body (perm : list R) (c i : nat) (htrans : list R) : option (list R) :=
  let d := ge_d ge in
  if decide (d ≤ 3)%nat then
    K ← slice perm (c * d * d) (d * d);
    cc ← slice (ge_cc ge) (c * d) d;
    f ← u_cellfaces g !! i;
    a ← u_facecells g !! (2 * f)%nat;
    let s := if decide (a = Z.of_nat c) then 1 else -1 in
    n ← slice (ge_n ge) (f * d) d;
    fc ← slice (ge_fc ge) (f * d) d;
    '(h, denom) ← for_loop d 0 (htrans_dim s K n fc cc) (0, 0);
    if Rlt_dec 0 denom then upd htrans i (Rabs (h / denom)) else None
  else None.
(** tpfa_htrans_compute, trans_tpfa.c:13-60. *)
Definition htrans_compute (perm htrans : list R) : option (list R) :=
  csr_loop (u_nc g) (u_facepos g) (htrans_body perm) htrans.

(** [trans[f] = v] for all faces, trans_tpfa.c:70-72 and 98-100, and
    [trans[f] = 1.0 / trans[f]], 82-84 and 110-112. *)
Definition zero_body (f : nat) (trans : list R) : option (list R) := upd trans f 0.
Definition recip_body (f : nat) (trans : list R) : option (list R) :=
  t ← trans !! f; v ← rdiv 1 t; upd trans f v.

(** tpfa_trans_compute, trans_tpfa.c:64-85. *)
Definition trans_body (htrans : list R) (c i : nat) (trans : list R) : option (list R) :=
  f ← u_cellfaces g !! i; h ← htrans !! i; v ← rdiv 1 h; addto trans f v.
Definition trans_compute (htrans trans : list R) : option (list R) :=
  trans ← for_loop (u_nf g) 0 zero_body trans;
  trans ← csr_loop (u_nc g) (u_facepos g) (trans_body htrans) trans;
  for_loop (u_nf g) 0 recip_body trans.

(** tpfa_eff_trans_compute, trans_tpfa.c:89-113. *)
Definition eff_trans_body (totmob htrans : list R) (c i : nat) (trans : list R) : option (list R) :=
  f ← u_cellfaces g !! i; m ← totmob !! c; h ← htrans !! i; v ← rdiv 1 (m * h); addto trans f v.
Definition eff_trans_compute (totmob htrans trans : list R) : option (list R) :=
  trans ← for_loop (u_nf g) 0 zero_body trans;
  trans ← csr_loop (u_nc g) (u_facepos g) (eff_trans_body totmob htrans) trans;
  for_loop (u_nf g) 0 recip_body trans.
End trans.
