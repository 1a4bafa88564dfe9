(** Model of opm/core/props/rock/RockFromDeck.cpp and RockBasic.cpp.

    Simplifications valid for the whole file: double is modelled by R; the deck is
    the function from keywords to vectors that hasField and getFloatingPointValue
    make of it; vectors pointed to are copied; global_cell has no negative elements. *)
From Coq Require Import Reals String.
From Verif Require Import Base LoopModel.
Local Open Scope R_scope.

(** hasField of the parser. *)
Definition has {A} (deck : string → option A) (k : string) : bool := match deck k with Some _ => true | None => false end.

(** enum PermeabilityKind, RockFromDeck.cpp:30. *)
Inductive perm_kind := ScalarPerm | DiagonalPerm | TensorPerm | NonePerm | InvalidPerm.

(** classifyPermeability, RockFromDeck.cpp:160-207. *)
Definition classify (deck : string → option (list R)) : perm_kind :=
  let xx := has deck "PERMX" in let xy := has deck "PERMXY" in let xz := has deck "PERMXZ" in
  let yx := has deck "PERMYX" in let yy := has deck "PERMY" in let yz := has deck "PERMYZ" in
  let zx := has deck "PERMZX" in let zy := has deck "PERMZY" in let zz := has deck "PERMZ" in
  let num_cross := (Nat.b2n xy + Nat.b2n xz + Nat.b2n yx + Nat.b2n yz + Nat.b2n zx + Nat.b2n zy)%nat in
  let num := (Nat.b2n xx + Nat.b2n yy + Nat.b2n zz + num_cross)%nat in
  let retval := if decide (0 < num_cross)%nat then TensorPerm
                else if decide (num = 1)%nat then ScalarPerm else if decide (2 <= num)%nat then DiagonalPerm else NonePerm in
  let ok := if decide (0 < num)%nat then
              (xx || negb (xy || xz || yx || zx)) && (yy || negb (yx || yz || xy || zy)) && (zz || negb (zx || zy || xz || yz))
            else true in
  if ok then retval else InvalidPerm.

(** setScalarPermIfNeeded, RockFromDeck.cpp:228-233. *)
Definition copy_if_zero (kmap : list nat) (i j : nat) : option (list nat) :=
  a ← kmap !! j; if decide (a = 0%nat) then b ← kmap !! i; upd kmap j b else Some kmap.
Definition set_scalar (kmap : list nat) (i j k : nat) : option (list nat) :=
  kmap ← copy_if_zero kmap i j; copy_if_zero kmap i k.
(** One diagonal component, e.g. RockFromDeck.cpp:285-290. *)
Definition diag (deck : string → option (list R)) (k : string) (i j l : nat) (st : list (list R) * list nat) : option (list (list R) * list nat) :=
  let '(tensor, kmap) := st in
  match deck k with
  | None => Some st
  | Some v => kmap ← upd kmap i (length tensor); kmap ← set_scalar kmap i j l; Some (tensor ++ [v], kmap)
  end.
(** One component off the diagonal, e.g. RockFromDeck.cpp:291-294. *)
Definition cross (deck : string → option (list R)) (k : string) (i j : nat) (st : list (list R) * list nat) : option (list (list R) * list nat) :=
  let '(tensor, kmap) := st in
  match deck k with
  | None => Some st
  | Some v => kmap ← upd kmap j (length tensor); kmap ← upd kmap i (length tensor); Some (tensor ++ [v], kmap)
  end.
(** fillTensor, RockFromDeck.cpp:268-336; [zero] is the vector that [tensor] has on
    entry. *)
Definition fill_tensor (deck : string → option (list R)) (zero : list R) : option (list (list R) * list nat) :=
  match classify deck with
  | InvalidPerm => None
  | _ =>
      st ← diag deck "PERMX" 0 4 8 ([zero], replicate 9 0%nat);
      st ← cross deck "PERMXY" 1 3 st;
      st ← cross deck "PERMXZ" 2 6 st;
      st ← cross deck "PERMYX" 3 1 st;
      st ← diag deck "PERMY" 4 8 0 st;
      st ← cross deck "PERMYZ" 5 7 st;
      st ← cross deck "PERMZX" 6 2 st;
      st ← cross deck "PERMZY" 7 5 st;
      diag deck "PERMZ" 8 0 4 st
  end.

(** The position of a cell in the deck, RockFromDeck.cpp:76 and 122. *)
Definition deck_pos (gc : option (list nat)) (c : nat) : option nat := match gc with None => Some c | Some g => g !! c end.
(** The tensor of one cell, RockFromDeck.cpp:119-132; [off] is where it starts. *)
Definition cell_tensor (tensor : list (list R)) (kmap : list nat) (glob off : nat) (thr : R) (perm : list R) : option (list R) :=
  st ← for_loop 3 0 (λ i st,
    '(perm, kix) ← for_loop 3 0 (λ j st,
      let '(perm, kix) := (st : list R * nat) in
      m ← kmap !! kix; t ← tensor !! m; v ← t !! glob; perm ← upd perm (off + kix)%nat v; Some (perm, (kix + 1)%nat)) (st : list R * nat);
    d ← perm !! (off + 3 * i + i)%nat;
    perm ← upd perm (off + 3 * i + i)%nat (Rmax d thr);
    Some (perm, kix)) (perm, 0%nat);
  Some (fst st).
(** assignPermeability, RockFromDeck.cpp:84-138; the result is permeability_ and
    permfield_valid_. *)
Definition assign_permeability (deck : string → option (list R)) (cartdims : nat * nat * nat) (gc : option (list nat)) (nc : nat) (thr : R)
    (valid : list bool) : option (list R * list bool) :=
  let '(nx, ny, nz) := cartdims in
  let num_global := (nx * ny * nz)%nat in
  if decide (0 < num_global)%nat then
    '(tensor, kmap) ← fill_tensor deck (replicate num_global 0);
    if decide (1 < length tensor)%nat then
      st ← for_loop nc 0 (λ c st,
        let '(perm, off, valid) := (st : list R * nat * list bool) in
        glob ← deck_pos gc c;
        perm ← cell_tensor tensor kmap glob off thr perm;
        valid ← upd valid c true;
        Some (perm, (off + 9)%nat, valid)) (replicate (9 * nc) 0, 0%nat, valid);
      let '(perm, _, valid) := st in Some (perm, valid)
    else Some (replicate (9 * nc) 0, valid)
  else None.
(** assignPorosity, RockFromDeck.cpp:68-80. *)
Definition assign_porosity (deck : string → option (list R)) (gc : option (list nat)) (nc : nat) : option (list R) :=
  match deck "PORO"%string with
  | None => Some (replicate nc 1)
  | Some poro => for_loop nc 0 (λ c porosity, g ← deck_pos gc c; v ← poro !! g; upd porosity c v) (replicate nc 1)
  end.

(** Data members, RockFromDeck.hpp:79-81; init, RockFromDeck.cpp:58-65. *)
Record drock := DRock { dr_poro : list R; dr_perm : list R; dr_valid : list bool }.
Definition rock_init (deck : string → option (list R)) (cartdims : nat * nat * nat) (gc : option (list nat)) (nc : nat) : option drock :=
  poro ← assign_porosity deck gc nc;
  '(perm, valid) ← assign_permeability deck cartdims gc nc 0 (replicate nc false);
  Some (DRock poro perm valid).

(** RockBasic::init, RockBasic.cpp:35-52: porosity_ and permeability_. *)
Definition rock_basic (dim nc : nat) (poro perm : R) : option (list R * list R) :=
  let dsq := (dim * dim)%nat in
  k ← for_loop nc 0 (λ i k, for_loop dim 0 (λ d k, upd k (dsq * i + dim * d + d)%nat perm) k) (replicate (nc * dsq) 0);
  Some (replicate nc poro, k).
