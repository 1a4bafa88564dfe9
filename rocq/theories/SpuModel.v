(** Model of opm/core/transport/minimal/spu_explicit.c.  Doubles are real
    numbers; division by zero, a failed assertion and access out of bounds are
    [None]. *)
From Coq Require Import Reals.
From Verif Require Import Base GridModel LoopModel TableModel AccModel.
Local Open Scope R_scope.

Section spu.
Variable g : ugrid.
Variables s0 mob dflux gflux src : list R.
Variable dt : R.

(** Body of the loop over the cells, spu_explicit.c:28-43. *)
Definition spu_cell (i : nat) (s : list R) : option (list R) :=
  x ← s0 !! i;
  s ← upd s i x;
  q ← src !! i;
  if Rlt_dec 0 q then addto s i (dt * q)
  else
    m1 ← mob !! (2 * i)%nat;
    m2 ← mob !! (2 * i + 1)%nat;
    v ← rdiv (dt * q * m1) (m1 + m2);
    addto s i v.

(** The choice of mobilities, spu_explicit.c:51-84; [d], [gf] are dflux[f] and
    gflux[f]. *)
Definition spu_mob (c1 c2 : nat) (d gf : R) : option (R * R) :=
  let same := (if Rlt_dec 0 d then if Rlt_dec 0 gf then true else false else false) ||
              (if Rlt_dec d 0 then if Rlt_dec gf 0 then true else false else false) in
  if same then
    m1 ← mob !! (if Rlt_dec 0 d then 2 * c1 else 2 * c2)%nat;
    m2 ← mob !! (if Rlt_dec 0 (d - m1 * gf) then 2 * c1 + 1 else 2 * c2 + 1)%nat;
    Some (m1, m2)
  else
    m2 ← mob !! (if Rlt_dec 0 d then 2 * c1 + 1 else 2 * c2 + 1)%nat;
    m1 ← mob !! (if Rlt_dec 0 (d + m2 * gf) then 2 * c1 else 2 * c2)%nat;
    Some (m1, m2).

(** Body of the loop over the faces, spu_explicit.c:46-92. *)
Definition spu_face (f : nat) (s : list R) : option (list R) :=
  a ← u_facecells g !! (2 * f)%nat;
  b ← u_facecells g !! (2 * f + 1)%nat;
  if bool_decide (a ≠ -1)%Z && bool_decide (b ≠ -1)%Z then
    d ← dflux !! f;
    gf ← gflux !! f;
    if decide (0 <= a)%Z then
      if decide (0 <= b)%Z then
        '(m1, m2) ← spu_mob (Z.to_nat a) (Z.to_nat b) d gf;
        if Rlt_dec 0 (m1 + m2) then
          let flux := m1 / (m1 + m2) * (d + m2 * gf) in
          s ← addto s (Z.to_nat a) (- (flux * dt));
          addto s (Z.to_nat b) (flux * dt)
        else None
      else None
    else None
  else Some s.

(** spu_explicit, spu_explicit.c:16-93; [s] is the array given by the caller,
    whose content is overwritten.  [s[c1] -= v] is written as adding [-v]. *)
Definition spu_explicit (s : list R) : option (list R) :=
  s ← for_loop (u_nc g) 0 spu_cell s;
  for_loop (u_nf g) 0 spu_face s.
End spu.
