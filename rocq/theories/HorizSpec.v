(** Horizontal faces and cells of a corner-point grid, stated on the point
    numbers of the corners. *)
From Verif Require Import Base UniqModel UniqSpec PrepModel.

(** A face: the cells above (left of, in front of) and below it, its nodes. *)
Record face := Face { fc_a : Z; fc_b : Z; fc_nodes : list Z }.
(** The arrays of the grid hold the faces [F]. *)
Record holds (g : pgrid) (F : list face) : Prop := {
  ho_nf : g_nf g = length F;
  ho_nbr : ∃ r, g_nbr g = concat ((λ x, [fc_a x; fc_b x]) <$> F) ++ r;
  ho_nodes : ∃ r, g_nodes g = concat (fc_nodes <$> F) ++ r;
  ho_ptr : ∀ k, k ≤ length F → g_ptr g !! k = Some (length (concat (fc_nodes <$> take k F)));
  ho_nf_m : length F ≤ g_m g;
  ho_lnbr : 2 * g_m g ≤ length (g_nbr g);
  ho_lnodes : length (g_nodes g) = g_n g;
  ho_lptr : length (g_ptr g) = g_m g + 1;
  ho_ltag : length (g_tag g) = g_m g }.

Section spec.
Variables (nx ny nz : nat) (plist : list Z).

(** The numbers of the four corners of a cell at corner level [k], in the order
    of a face. *)
Definition quad (i j k : nat) (q : list Z) : Prop := ∃ v0 v1 v2 v3,
  number nx nz plist (2 * i) (2 * j) k v0 ∧ number nx nz plist (2 * i + 1) (2 * j) k v1 ∧
  number nx nz plist (2 * i + 1) (2 * j + 1) k v2 ∧ number nx nz plist (2 * i) (2 * j + 1) k v3 ∧ q = [v0; v1; v2; v3].
(** The Cartesian index of cell [(i, j, k)]. *)
Definition cid (i j k : nat) : Z := Z.of_nat (i + nx * (j + ny * k)).
Definition in_grid (i j k : nat) : Prop := i < nx ∧ j < ny ∧ k < nz.
(** The upper corners do not all coincide with the lower ones. *)
Definition live (i j k : nat) : Prop := in_grid i j k ∧ ∃ q q', quad i j (2 * k) q ∧ quad i j (2 * k + 1) q' ∧ q ≠ q'.
(** There is nothing between the bottom of cell [k] and the top of cell [k']. *)
Definition touching (i j k k' : nat) : Prop := k < k' ∧ ∀ l q q', 2 * k + 1 ≤ l → l ≤ 2 * k' → quad i j (2 * k + 1) q → quad i j l q' → q = q'.

(** plist has its size, is padded with INT_MAX, and INT_MAX is no point. *)
Record padded : Prop := {
  pa_len : length plist = 8 * (nx * ny * nz + nx * ny);
  pa_below : ∀ i j, i < 2 * nx → j < 2 * ny → plist !! ((2 * nz + 2) * (i + 2 * nx * j) + 1 + 2 * nz) = Some int_max;
  pa_last : ∀ i j, i < 2 * nx → j < 2 * ny → plist !! ((2 * nz + 2) * (i + 2 * nx * j) + 2 * nz) ≠ Some int_max }.

(** Horizontal faces: every live cell has exactly one face on top, at its upper
    corners, and exactly one below; cells that touch share the face between;
    there are no other faces. *)
Record right_horizontal (F : list face) : Prop := {
  rh_top : ∀ i j k, live i j k → ∃ x, filter (λ y, fc_b y = cid i j k) F = [x] ∧ quad i j (2 * k) (fc_nodes x);
  rh_bottom : ∀ i j k, live i j k → ∃ x, filter (λ y, fc_a y = cid i j k) F = [x] ∧ quad i j (2 * k + 1) (fc_nodes x);
  rh_above : ∀ x, x ∈ F → fc_a x = (-1)%Z ∨ ∃ i j k, live i j k ∧ fc_a x = cid i j k;
  rh_below : ∀ x, x ∈ F → fc_b x = (-1)%Z ∨ ∃ i j k, live i j k ∧ fc_b x = cid i j k;
  rh_some : ∀ x, x ∈ F → fc_a x ≠ (-1)%Z ∨ fc_b x ≠ (-1)%Z;
  rh_shared : ∀ i j k i' j' k', live i j k → live i' j' k' →
    (∃ x, x ∈ F ∧ fc_a x = cid i j k ∧ fc_b x = cid i' j' k') ↔ i = i' ∧ j = j' ∧ touching i j k k' }.

(** local_cell_index numbers the live cells from 0 to [n - 1]. *)
Record numbered (cell : list Z) (n : nat) : Prop := {
  nu_len : length cell = nx * ny * nz;
  nu_dead : ∀ i j k, in_grid i j k → ¬ live i j k → cell !! (i + nx * (j + ny * k)) = Some (-1)%Z;
  nu_live : ∀ i j k, live i j k → ∃ v, v < n ∧ cell !! (i + nx * (j + ny * k)) = Some (Z.of_nat v);
  nu_onto : ∀ v, v < n → ∃ i j k, live i j k ∧ cell !! (i + nx * (j + ny * k)) = Some (Z.of_nat v);
  nu_inj : ∀ i j k i' j' k' v, live i j k → live i' j' k' →
    cell !! (i + nx * (j + ny * k)) = Some v → cell !! (i' + nx * (j' + ny * k')) = Some v → i = i' ∧ j = j' ∧ k = k' }.
(** The numbers follow the Cartesian order, and [gci] lists the Cartesian
    indices. *)
Record enumerated (cell gci : list Z) (n : nat) : Prop := {
  en_numbered : numbered cell n;
  en_gci : ∀ i j k v, live i j k → cell !! (i + nx * (j + ny * k)) = Some (Z.of_nat v) → gci !! v = Some (cid i j k);
  en_len : length gci = nx * ny * nz;
  en_mono : ∀ v v' c c', v < v' → v' < n → gci !! v = Some c → gci !! v' = Some c' → (c < c')%Z }.
End spec.

(** Cartesian cell [v], or -1, has become local cell [w] out of [n]. *)
Definition local_of (n : nat) (gci : list Z) (v w : Z) : Prop := (v = (-1)%Z ∧ w = (-1)%Z) ∨ ∃ k, k < n ∧ w = Z.of_nat k ∧ gci !! k = Some v.
Definition relabelled (n : nat) (gci : list Z) (x x' : face) : Prop := local_of n gci (fc_a x) (fc_a x') ∧ local_of n gci (fc_b x) (fc_b x') ∧ fc_nodes x = fc_nodes x'.
