(** What the interfaces between the blocks of a partition are, stated on the
    fine grid and on the arrays of the result only. *)
From Verif Require Import Base CoarseModel.

(** The block of a cell; -1 outside of the grid. *)
Definition block_at (p : list Z) (c x : Z) : Prop := (c < 0 ∧ x = -1)%Z ∨ ((0 ≤ c)%Z ∧ p !! Z.to_nat c = Some x).
(** The blocks on the two sides of fine face [f]. *)
Definition sides (p nb : list Z) (f : nat) (x y : Z) : Prop :=
  ∃ c1 c2, nb !! (2 * f) = Some c1 ∧ nb !! (2 * f + 1) = Some c2 ∧ block_at p c1 x ∧ block_at p c2 y.
Definition between (p nb : list Z) (f : nat) (x y : Z) : Prop := sides p nb f x y ∨ sides p nb f y x.
(** A neighbour list of [nf] faces and a partition of [nc] cells. *)
Record valid_input (nc nf : nat) (p nb : list Z) : Prop := {
  vi_p : length p = nc;
  vi_nb : length nb = 2 * nf;
  vi_pos : Forall (λ x, 0 ≤ x)%Z p;
  vi_cells : ∀ f c1 c2, nb !! (2 * f) = Some c1 → nb !! (2 * f + 1) = Some c2 →
    (c1 < Z.of_nat nc ∧ c2 < Z.of_nat nc ∧ (0 ≤ c1 ∨ 0 ≤ c2))%Z }.

(** The rows of a compressed table. *)
Definition delimits {A} (pos : list nat) (arr : list A) (rows : list (list A)) : Prop :=
  length pos = S (length rows) ∧ pos !! 0 = Some 0 ∧ pos !! length rows = Some (length arr) ∧
  ∀ i r, rows !! i = Some r → ∃ b e, pos !! i = Some b ∧ pos !! S i = Some e ∧ b ≤ e ∧ slice arr b (e - b) = Some r.

(** Coarse face [i] lies between [x] and [y]. *)
Definition coarse_face (t : topology) (i : nat) (x y : Z) : Prop :=
  i < t_nfaces t ∧ t_neighbours t !! (2 * i) = Some x ∧ t_neighbours t !! (2 * i + 1) = Some y.

(** The number of blocks is one more than the largest block number. *)
Definition right_number (p : list Z) (t : topology) : Prop :=
  Forall (λ x, x < Z.of_nat (t_nblocks t))%Z p ∧ (t_nblocks t = 0 ∨ (Z.of_nat (t_nblocks t) - 1)%Z ∈ p).
(** There is one coarse face for each pair of different blocks with a common
    fine face, and for each block at the boundary, and no other. *)
Record right_faces (p nb : list Z) (t : topology) : Prop := {
  rf_length : length (t_neighbours t) = 2 * t_nfaces t;
  rf_sound : ∀ i x y, coarse_face t i x y → (0 ≤ x ∧ (y = -1 ∨ x < y))%Z ∧ ∃ f, between p nb f x y;
  rf_complete : ∀ f x y, between p nb f x y → x ≠ y → ∃ i, coarse_face t i x y ∨ coarse_face t i y x;
  rf_unique : ∀ i j x y, coarse_face t i x y → coarse_face t j x y ∨ coarse_face t j y x → i = j }.
(** The faces of each block, in increasing order. *)
Definition right_blocks (t : topology) : Prop :=
  ∃ rows, delimits (t_blkfacepos t) (t_blkfaces t) rows ∧ length rows = t_nblocks t ∧
    ∀ b r, rows !! b = Some r → StronglySorted lt r ∧
      ∀ i, i ∈ r ↔ ∃ x y, coarse_face t i x y ∧ (x = Z.of_nat b ∨ y = Z.of_nat b).
(** The fine faces of each coarse face, once each. *)
Definition right_subs (p nb : list Z) (t : topology) (spos : list nat) (sub : list Z) : Prop :=
  ∃ rows, delimits spos sub rows ∧ length rows = t_nfaces t ∧
    ∀ i r x y, rows !! i = Some r → coarse_face t i x y → NoDup r ∧ ∀ g, g ∈ r ↔ ∃ f, g = Z.of_nat f ∧ between p nb f x y.
