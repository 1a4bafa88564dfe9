(** Vocabulary for boundary conditions on sides (C69). *)
From Coq Require Import Reals.
From Verif Require Import Base TofSpec MiscSpec SideModel.
Local Open Scope R_scope.

(** The number of the cell with indices [ijk] in a box, first index fastest. *)
Fixpoint lex (dims ijk : list nat) : nat := match dims, ijk with n :: dims, i :: ijk => (i + n * lex dims ijk)%nat | _, _ => 0%nat end.
Definition place (g : tgrid) (c : nat) : nat := match tg_gc g with None => c | Some l => default 0%nat (l !! c) end.
(** [co c] are the indices of cell [c] in the box. *)
Definition coordinates (g : tgrid) (co : nat → list nat) : Prop := (tg_dim g <= 3)%nat ∧ (tg_dim g <= length (tg_cart g))%nat ∧
  (∀ l, tg_gc g = Some l → (tg_nc g <= length l)%nat) ∧
  ∀ c, (c < tg_nc g)%nat → length (co c) = tg_dim g ∧ Forall2 lt (co c) (take (tg_dim g) (tg_cart g)) ∧ place g c = lex (take (tg_dim g) (tg_cart g)) (co c).
(** Arrays have the sizes of grid.h. *)
Definition sized (g : tgrid) (tag : list Z) : Prop := tg_tag g = Some tag ∧ length (tg_pos g) = (tg_nc g + 1)%nat ∧ length tag = length (tg_faces g) ∧
  (∀ c lo hi, tg_pos g !! c = Some lo → tg_pos g !! (c + 1)%nat = Some hi → (lo <= hi <= length (tg_faces g))%nat) ∧
  (∀ hf f, tg_faces g !! hf = Some f → (2 * f + 1 < length (tg_cells g))%nat ∧ (f < length (tg_area g))%nat).
(** First or last layer of cells in the direction of the side. *)
Definition outermost (g : tgrid) (co : nat → list nat) (side c : nat) : Prop :=
  co c !! (side / 2)%nat = Some (if decide (side mod 2 = 1)%nat then (default 0 (tg_cart g !! (side / 2)) - 1)%nat else 0%nat).
(** [hf] is a half-face of cell [c]. *)
Definition of_cell (g : tgrid) (c hf : nat) : Prop := ∃ lo hi, tg_pos g !! c = Some lo ∧ tg_pos g !! (c + 1)%nat = Some hi ∧ (lo <= hf < hi)%nat.
(** Half-face of a cell in the outermost layer, looking to the side. *)
Definition side_half (g : tgrid) (tag : list Z) (co : nat → list nat) (side hf f : nat) : Prop :=
  ∃ c, (c < tg_nc g)%nat ∧ outermost g co side c ∧ of_cell g c hf ∧ tag !! hf = Some (Z.of_nat side) ∧ tg_faces g !! hf = Some f.
Definition boundary (g : tgrid) (f : nat) : Prop := tg_cells g !! (2 * f)%nat = Some (-1)%Z ∨ tg_cells g !! (2 * f + 1)%nat = Some (-1)%Z.
Definition area (g : tgrid) (f : nat) : R := val (tg_area g) f.
