(** Model of opm/core/grid/ColumnExtract.hpp. *)
From Verif Require Import Base GridModel LoopModel.

Section column.
  (** [d0], [d1]: cartdims[0], cartdims[1]; [gc]: the global_cell array, or
      [None] for a null pointer.  [int] is modelled by [nat] (cell numbers and
      global indices are not negative; no overflow). *)
  Context (g : ugrid) (d0 d1 : nat) (gc : option (list nat)).

  (** grid.global_cell ? grid.global_cell[c] : c, ColumnExtract.hpp:27, 29, 66. *)
  Definition index_of (c : nat) : option nat :=
    match gc with Some a => a !! c | None => Some c end.

  (** ExtractColumnCompare::operator(), ColumnExtract.hpp:24-33. *)
  Definition compare (i j : nat) : option bool :=
    index_i ← index_of i;
    let k_i := index_i / d0 / d1 in
    index_j ← index_of j;
    let k_j := index_j / d0 / d1 in
    Some (bool_decide (k_i < k_j)).

  (** The loop of neighbours, ColumnExtract.hpp:40-45; [n] half-faces left. *)
  Fixpoint neighbours_from (c1 : nat) (hf n : nat) : option bool :=
    match n with
    | 0 => Some false
    | S n =>
        f ← u_cellfaces g !! hf;
        a ← u_facecells g !! (2 * f);
        if decide (a = Z.of_nat c1) then Some true else
        b ← u_facecells g !! (2 * f + 1);
        if decide (b = Z.of_nat c1) then Some true else
        neighbours_from c1 (S hf) n
    end.

  (** neighbours, ColumnExtract.hpp:38-47. *)
  Definition neighbours (c0 c1 : nat) : option bool :=
    lo ← u_facepos g !! c0;
    hi ← u_facepos g !! (c0 + 1);
    neighbours_from c1 lo (hi - lo).

  (** std::map<int,int>::find, as an association list. *)
  Fixpoint map_find (k : nat) (m : list (nat * nat)) : option nat :=
    match m with
    | [] => None
    | (k', v) :: m => if decide (k = k') then Some v else map_find k m
    end.

  (** Body of the first loop, ColumnExtract.hpp:64-82.  Division by zero is
      undefined. *)
  Definition collect (cell : nat) (s : list (nat * nat) * list (list nat))
      : option (list (nat * nat) * list (list nat)) :=
    let '(global_to_local, columns) := s in
    index ← index_of cell;
    if decide (d0 = 0 ∨ d1 = 0) then None else
    let i_cart := index mod d0 in
    let k_cart := index / d0 / d1 in
    let j_cart := (index - k_cart * d0 * d1) / d0 in
    let '(local_index, global_to_local, columns) :=
      match map_find (i_cart + j_cart * d0) global_to_local with
      | Some l => (l, global_to_local, columns)
      | None => (length columns,
                 (i_cart + j_cart * d0, length columns) :: global_to_local, columns ++ [[]])
      end in
    col ← columns !! local_index;
    columns ← upd columns local_index (col ++ [cell]);
    Some (global_to_local, columns).

  (** Body of the loop over k, ColumnExtract.hpp:95-107. *)
  Definition split_body (column : list nat) (k : nat) (s : nat * list (list nat))
      : option (nat * list (list nat)) :=
    let '(first_of_col, new_columns) := s in
    c0 ← column !! (k - 1);
    c1 ← column !! k;
    nb ← neighbours c0 c1;
    if negb nb
    then piece ← slice column first_of_col (k - first_of_col);
         Some (k, new_columns ++ [piece])
    else Some (first_of_col, new_columns).

  (** Body of the loop over the columns, ColumnExtract.hpp:92-114. *)
  Definition split_column (col : nat) (s : list (list nat) * list (list nat))
      : option (list (list nat) * list (list nat)) :=
    let '(columns, new_columns) := s in
    column ← columns !! col;
    '(first_of_col, new_columns) ←
      for_loop (length column - 1) 1 (split_body column) (0, new_columns);
    columns ← (if decide (first_of_col ≠ 0) then upd columns col (drop first_of_col column)
               else Some columns);
    Some (columns, new_columns).

  (** std::sort with ExtractColumnCompare; its result is only known through the
      contract in ColumnProps.v. *)
  Context (sort : list nat → list nat).

  (** extractColumn, ColumnExtract.hpp:57-124; [columns] is the vector passed
      in.  The final resize and swap is an append. *)
  Definition extract_column (columns : list (list nat)) : option (list (list nat)) :=
    '(_, columns) ← for_loop (u_nc g) 0 collect ([], columns);
    let num_cols := length columns in
    let columns := sort <$> columns in
    '(columns, new_columns) ← for_loop num_cols 0 split_column (columns, []);
    Some (columns ++ new_columns).
End column.
