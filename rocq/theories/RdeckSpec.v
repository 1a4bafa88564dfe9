(** Vocabulary for properties of rock (C67). *)
From Coq Require Import Reals String.
From Verif Require Import Base.
Local Open Scope R_scope.

(** The keyword of component (i, j) of the permeability. *)
Definition keyword (i j : nat) : string :=
  match i, j with
  | 0, 0 => "PERMX" | 0, 1 => "PERMXY" | 0, _ => "PERMXZ"
  | 1, 0 => "PERMYX" | 1, 1 => "PERMY" | 1, _ => "PERMYZ"
  | _, 0 => "PERMZX" | _, 1 => "PERMZY" | _, _ => "PERMZ"
  end%string%nat.
(** The first of several that are given. *)
Fixpoint first_given {A} (l : list (option A)) : option A := match l with [] => None | Some x :: _ => Some x | None :: l => first_given l end.
(** What the deck says about component (i, j): off the diagonal the lower triangle
    goes before the upper one; on the diagonal the component itself goes before
    the others in the order x, y, z. *)
Definition given (deck : string → option (list R)) (i j : nat) : option (list R) :=
  if decide (i = j) then first_given [deck (keyword i i); deck (keyword 0 0); deck (keyword 1 1); deck (keyword 2 2)]
  else first_given [deck (keyword (Nat.max i j) (Nat.min i j)); deck (keyword (Nat.min i j) (Nat.max i j))].
(** Its value at a position of the deck, 0 if nothing is said. *)
Definition at_pos (o : option (list R)) (g : nat) : R := match o with Some l => default 0 (l !! g) | None => 0 end.
(** No component off the diagonal without those on the diagonal in its row and
    column. *)
Definition structured (deck : string → option (list R)) : Prop := ∀ i j, (i < 3)%nat → (j < 3)%nat → i ≠ j →
  is_Some (deck (keyword i j)) → is_Some (deck (keyword i i)) ∧ is_Some (deck (keyword j j)).
(** Any component is given. *)
Definition some_perm (deck : string → option (list R)) : Prop := ∃ i j, (i < 3)%nat ∧ (j < 3)%nat ∧ is_Some (deck (keyword i j)).
(** Fields have a value for each cell of the box. *)
Definition full (deck : string → option (list R)) (N : nat) : Prop := ∀ i j l, (i < 3)%nat → (j < 3)%nat → deck (keyword i j) = Some l → length l = N.
(** Position of cell [c]. *)
Definition pos_of (gc : option (list nat)) (c : nat) : nat := match gc with None => c | Some g => default 0%nat (g !! c) end.
Definition mapped (gc : option (list nat)) (nc N : nat) : Prop :=
  match gc with None => (nc <= N)%nat | Some g => (nc <= length g)%nat ∧ ∀ c, (c < nc)%nat → (default 0 (g !! c) < N)%nat end.
