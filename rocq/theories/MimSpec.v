(** C61: what an inner product of the mimetic method must satisfy. The faces of
    a cell are numbered from 0, [C i k] is component [k] of the way from the
    centre of the cell to that of face [i], [N i k] of its outward normal,
    [A i] its area. *)
From Coq Require Import Reals.
From Verif Require Import Base TofSpec.
Local Open Scope R_scope.

(** Sum over [0], ..., [n - 1]. *)
Definition sum (n : nat) (f : nat → R) : R := rsum f (seq 0 n).
Definition unit_entry (k l : nat) : R := if decide (k = l) then 1 else 0.
(** Normals and centres fit together, as by Green's formula. *)
Definition green (n d : nat) (vol : R) (N C : nat → nat → R) : Prop :=
  ∀ k l, (k < d)%nat → (l < d)%nat → sum n (λ i, N i k * C i l) = vol * unit_entry k l.
(** [Q] has orthonormal columns that span those of [M]. *)
Definition orthonormal (n d : nat) (Q : nat → nat → R) : Prop :=
  ∀ k l, (k < d)%nat → (l < d)%nat → sum n (λ i, Q i k * Q i l) = unit_entry k l.
Definition spans (n d : nat) (Q M : nat → nat → R) : Prop :=
  ∃ T : nat → nat → R, ∀ i l, (i < n)%nat → (l < d)%nat → M i l = sum d (λ k, Q i k * T k l).
(** Properties of square matrices. *)
Definition symmetric (n : nat) (B : nat → nat → R) : Prop := ∀ i j, (i < n)%nat → (j < n)%nat → B i j = B j i.
Definition quad (n : nat) (B : nat → nat → R) (x : nat → R) : R := sum n (λ i, sum n (λ j, x i * B i j * x j)).
Definition nonnegative (n : nat) (B : nat → nat → R) : Prop := ∀ x, 0 <= quad n B x.
Definition definite (n : nat) (B : nat → nat → R) : Prop := ∀ x, (∃ i, (i < n)%nat ∧ x i ≠ 0) → 0 < quad n B x.
(** Linear pressures give the exact fluxes: with pressure drop [C i . g] to face
    [i] the flux through it is [N i . (K g)]. *)
Definition exact_for_linear (n d : nat) (B N K C : nat → nat → R) : Prop :=
  ∀ g i, (i < n)%nat → sum n (λ j, B i j * sum d (λ l, C j l * g l)) = sum d (λ k, N i k * sum d (λ l, K k l * g l)).
(** The inner product: the consistent part and, on the complement of the linear
    functions, 6 times the mean permeability. *)
Definition mimetic (n d : nat) (vol : R) (N K Q : nat → nat → R) (A : nat → R) (i j : nat) : R :=
  sum d (λ k, sum d (λ l, N i k * K k l * N j l)) / vol +
  6 * (sum d (λ k, K k k) / INR d) / vol * (A i * (unit_entry i j - sum d (λ k, Q i k * Q j k)) * A j).

(** Component [k] of vector [f] in an array of vectors of length [d]. *)
Definition comp (d : nat) (l : list R) (f k : nat) : R := default 0 (l !! (k + f * d)%nat).
(** The faces [row] of cell [c]: outward normals, ways from the centre, areas. *)
Definition face_no (row : list nat) (i : nat) : nat := default 0%nat (row !! i).
Definition outward (fneighbour : list Z) (c f : nat) : R := if decide (fneighbour !! (2 * f)%nat = Some (Z.of_nat c)) then 1 else -1.
Definition cell_N (d : nat) (fneighbour : list Z) (fnormal : list R) (c : nat) (row : list nat) (i k : nat) : R :=
  outward fneighbour c (face_no row i) * comp d fnormal (face_no row i) k.
Definition cell_C (d : nat) (fcentroid ccentroid : list R) (c : nat) (row : list nat) (i k : nat) : R :=
  comp d fcentroid (face_no row i) k - comp d ccentroid c k.
Definition cell_A (farea : list R) (row : list nat) (i : nat) : R := default 0 (farea !! face_no row i).
(** The permeability of cell [c], stored by columns. *)
Definition cell_K (d : nat) (perm : list R) (c k l : nat) : R := default 0 (perm !! (c * d * d + (k + l * d))%nat).
(** The matrices of the cells one after the other, by columns. *)
Definition start (cf : list (list nat)) (c : nat) : nat := list_sum (map (λ row, (length row * length row)%nat) (take c cf)).
Definition holds_matrix (Binv : list R) (pos n : nat) (B : nat → nat → R) : Prop :=
  ∀ i j, (i < n)%nat → (j < n)%nat → Binv !! (pos + (i + j * n))%nat = Some (B i j).
