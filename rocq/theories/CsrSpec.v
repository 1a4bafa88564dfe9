(** What a compressed sparse row structure should hold, stated without
    reference to how it is built, and what the C standard says about qsort and
    bsearch. *)
From stdpp Require Import sorting.
From Verif Require Import Base.

(** ** Specification vocabulary: what a compressed row structure should hold. *)

(** The values pushed to row [i], in push order. *)
Definition row_of (items : list (nat * nat)) (i : nat) : list nat :=
  (filter (λ kv, kv.1 = i) items).*2.
Definition rows_of (m : nat) (items : list (nat * nat)) : list (list nat) :=
  row_of items <$> seq 0 m.
(** [ia], [ja] describe the rows [rows]: pointers start at 0, end at the number
    of stored values, do not decrease, and delimit the rows. *)
Definition holds_rows (ia ja : list nat) (rows : list (list nat)) : Prop :=
  length ia = S (length rows) ∧ ia !! 0 = Some 0 ∧ ia !! length rows = Some (length ja) ∧
  ∀ i r, rows !! i = Some r →
    ∃ b e, ia !! i = Some b ∧ ia !! S i = Some e ∧ b ≤ e ∧ slice ja b (e - b) = Some r.

(** qsort and bsearch with an ordering of integers (C11 7.22.5). *)
Definition qsort_contract (qsort : list nat → list nat) : Prop :=
  ∀ l, qsort l ≡ₚ l ∧ Sorted le (qsort l).
Definition bsearch_contract (bsearch : nat → list nat → option nat) : Prop :=
  ∀ j l, Sorted le l →
    match bsearch j l with Some p => l !! p = Some j | None => j ∉ l end.

(** Coupling of unknowns in the two-point discretisation: cell with itself,
    the two cells of an internal face, a well and the cells it perforates.
    Wells are numbered after the [nc] cells. *)
Definition coupled (nc : nat) (faces : list (option nat * option nat))
    (wells : list (list nat)) (i j : nat) : Prop :=
  (i = j ∧ i < nc + length wells) ∨
  (Some i, Some j) ∈ faces ∨ (Some j, Some i) ∈ faces ∨
  ∃ w cells, wells !! w = Some cells ∧
    ((i ∈ cells ∧ j = nc + w) ∨ (i = nc + w ∧ j ∈ cells)).
