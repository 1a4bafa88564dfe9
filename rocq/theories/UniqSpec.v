(** The points of the pillars, stated on the corners and on the output. *)
From Verif Require Import Base UniqModel.

(** What is known of the comparison of depths and of adding the tolerance; the
    numbers of the machine without NaN satisfy this, as do the real numbers. *)
Record depth_laws {V} (lt : V → V → Prop) (shift : V → V) : Prop := {
  dl_asym : ∀ x y, lt x y → ¬ lt y x;
  dl_cotrans : ∀ x y z, lt x z → lt x y ∨ lt y z;
  dl_shift : ∀ x, ¬ lt (shift x) x;
  dl_mono : ∀ x y, lt (shift x) (shift y) → lt x y }.
(** What is known of qsort. *)
Definition sorts {V} (lt : V → V → Prop) (qsort : list V → list V) : Prop :=
  ∀ l, qsort l ≡ₚ l ∧ StronglySorted (λ x y, ¬ lt y x) (qsort l).

Section spec.
Context {V : Type} (lt : V → V → Prop) (shift : V → V) (interp : list V → V → V * V).
Variables (nx ny nz : nat) (coord zcorn : list V) (actnum : list Z).

(** The arrays of grdecl have the right sizes; zcorn and actnum are permuted so
    that the values of a column are adjacent. *)
Record input_sizes : Prop := {
  is_dims : 1 ≤ nx ∧ 1 ≤ ny;
  is_coord : length coord = 6 * ((nx + 1) * (ny + 1));
  is_zcorn : length zcorn = 8 * (nx * ny * nz);
  is_actnum : length actnum = nx * ny * nz }.
(** Corner [k] of the corner column [(i, j)], its depth, whether its cell is
    active, and its pillar. *)
Definition corner (i j k : nat) : Prop := i < 2 * nx ∧ j < 2 * ny ∧ k < 2 * nz.
Definition depth (i j k : nat) (z : V) : Prop := zcorn !! (2 * nz * (i + 2 * nx * j) + k) = Some z.
Definition active (i j k : nat) : Prop := ∃ a, actnum !! (nz * (i / 2 + nx * (j / 2)) + k / 2) = Some a ∧ a ≠ 0%Z.
Definition pillar (i j : nat) : nat := (i + 1) / 2 + (nx + 1) * ((j + 1) / 2).
(** The depths of active corners on pillar [q]. *)
Definition on_pillar (q : nat) (z : V) : Prop := ∃ i j k, corner i j k ∧ pillar i j = q ∧ active i j k ∧ depth i j k z.

(** Point [n] of the pillar with points [L] is within the tolerance of [z], and
    is the first one that is. *)
Definition belongs (L : list V) (n : nat) (z : V) : Prop :=
  (∃ y, L !! n = Some y ∧ ¬ lt (shift y) z ∧ ¬ lt (shift z) y) ∧ ∀ m y, m < n → L !! m = Some y → lt (shift y) z.
(** The points [L] of pillar [q]: depths of its active corners, more than the
    tolerance apart, the deepest being the deepest corner, and one within the
    tolerance of each of its corners. *)
Record right_points (q : nat) (L : list V) : Prop := {
  rp_from : ∀ z, z ∈ L → on_pillar q z;
  rp_gap : ∀ n x y, L !! n = Some x → L !! S n = Some y → lt (shift x) y;
  rp_deepest : ∀ z, on_pillar q z → ∃ d, last L = Some d ∧ ¬ lt d z;
  rp_near : ∀ z, on_pillar q z → ∃ m, belongs L m z }.
(** The number of corner [k] of a column in plist. *)
Definition number (plist : list Z) (i j k : nat) (v : Z) : Prop := plist !! ((2 * nz + 2) * (i + 2 * nx * j) + 1 + k) = Some v.

(** The active corners down to [k] of a column do not rise. *)
Definition falling (i j k : nat) : Prop := ∀ k1 k2 z1 z2, k1 ≤ k2 → k2 ≤ k → active i j k1 → active i j k2 → depth i j k1 z1 → depth i j k2 z2 → ¬ lt z2 z1.

(** Everything: [P] are the points of the pillars. *)
Record right_numbering (P : list (list V)) (u : upoints) : Prop := {
  rn_pillars : length P = (nx + 1) * (ny + 1);
  rn_points : ∀ q L, P !! q = Some L → right_points q L;
  rn_num : u_num u = length (concat P);
  (* node coordinates *)
  rn_nodes : ∀ q L n z, P !! q = Some L → L !! n = Some z → ∃ c x y, slice coord (6 * q) 6 = Some c ∧ interp c z = (x, y) ∧
    slice (u_nodes u) (3 * (length (concat (take q P)) + n)) 3 = Some [x; y; z];
  (* numbers of active corners: the first point is number 0 of the first
     pillar; the deepest number so far is kept *)
  rn_active : ∀ i j k z, corner i j k → active i j k → depth i j k z → ∃ L v n, P !! pillar i j = Some L ∧ number (u_plist u) i j k v ∧
    v = Z.of_nat (length (concat (take (pillar i j) P)) + n) ∧
    (∃ k' z' , k' ≤ k ∧ active i j k' ∧ depth i j k' z' ∧ belongs L n z') ∧
    (∀ k' z' m, k' ≤ k → active i j k' → depth i j k' z' → belongs L m z' → m ≤ n);
  (* inactive corners repeat the number above *)
  rn_inactive : ∀ i j k, corner i j k → ¬ active i j k → ∃ v, number (u_plist u) i j k v ∧
    u_plist u !! ((2 * nz + 2) * (i + 2 * nx * j) + k) = Some v;
  (* padding *)
  rn_pad : ∀ i j, i < 2 * nx → j < 2 * ny → u_plist u !! ((2 * nz + 2) * (i + 2 * nx * j)) = Some int_min ∧
    u_plist u !! ((2 * nz + 2) * (i + 2 * nx * j) + 1 + 2 * nz) = Some int_max }.
End spec.
