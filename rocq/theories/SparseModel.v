(** Models of opm/core/utility/SparseTable.hpp and SparseVector.hpp.

    Simplifications valid for the whole file: element type [T] is abstract;
    [int] values are [Z] (no overflow); [None] is an assertion failure or an
    out-of-range access; [std::vector] capacity (reserve) is not modelled. *)
From Verif Require Import Base.

Section sparse.
Context {T : Type}.
Variable dflt : T.      (* T(), used by resize and as SparseVector's default element *)

(** ** SparseTable *)

(** Members, SparseTable.hpp:209-212. *)
Record table := Table { t_data : list T; t_rs : list Z }.
Definition empty_table : table := Table [] [].       (* SparseTable.hpp:58-60 *)

(** std::partial_sum as used in SparseTable.hpp:230. *)
Fixpoint psums (acc : Z) (l : list Z) : list Z :=
  match l with [] => [] | x :: l => (acc + x)%Z :: psums (acc + x) l end.

(** setRowStartsFromSizes, SparseTable.hpp:214-236.  The Boolean is false when
    the function throws; [debug] is true when NDEBUG is not defined. *)
Definition set_row_starts (debug : bool) (sizes : list Z) (t : table) : bool * table :=
  if decide (length sizes < 1) then (false, t)
  else if debug && bool_decide (Exists (λ x, x < 0)%Z sizes) then (false, t)
  else
    let rs := 0%Z :: psums 0 sizes in
    let t := Table (t_data t) rs in
    (bool_decide (Z.of_nat (length (t_data t)) = List.last rs 0%Z), t).

(** Range constructor, SparseTable.hpp:67-73 ([None] result when it throws: no
    object), and assign, 82-88. *)
Definition assign (debug : bool) (data : list T) (sizes : list Z) (t : table) : bool * table :=
  set_row_starts debug sizes (Table data (t_rs t)).
Definition construct (debug : bool) (data : list T) (sizes : list Z) : option table :=
  let '(ok, t) := assign debug data sizes empty_table in
  if ok then Some t else None.

(** allocate, SparseTable.hpp:94-102.  A negative total wraps around in size_t
    and resize throws. *)
Definition zsum (l : list Z) : Z := foldl Z.add 0%Z l.
Definition allocate (debug : bool) (sizes : list Z) (t : table) : bool * table :=
  let n := zsum sizes in
  if decide (n < 0)%Z then (false, t)
  else set_row_starts debug sizes (Table (resize (Z.to_nat n) dflt (t_data t)) (t_rs t)).

(** appendRow, SparseTable.hpp:106-115. *)
Definition append_row (row : list T) (t : table) : table :=
  let data := t_data t ++ row in
  let rs := match t_rs t with [] => [0%Z] | rs => rs end in
  Table data (rs ++ [Z.of_nat (length data)]).

(** clear, SparseTable.hpp:157-161. *)
Definition clear (t : table) : table := Table [] [].

(** empty, size, dataSize, rowSize: SparseTable.hpp:118-154. *)
Definition t_empty (t : table) : bool := match t_rs t with [] => true | _ => false end.
Definition t_size (t : table) : Z := if t_empty t then 0%Z else (Z.of_nat (length (t_rs t)) - 1)%Z.
Definition t_dataSize (t : table) : Z := Z.of_nat (length (t_data t)).
Definition t_rowSize (t : table) (row : Z) : option Z :=
  if decide (0 ≤ row ∧ row < t_size t)%Z then
    e ← t_rs t !! Z.to_nat (row + 1); b ← t_rs t !! Z.to_nat row; Some (e - b)%Z
  else None.

(** operator[], SparseTable.hpp:168-181: the elements in the returned range. *)
Definition t_row (t : table) (row : Z) : option (list T) :=
  if decide (0 ≤ row ∧ row < t_size t)%Z then
    b ← t_rs t !! Z.to_nat row; e ← t_rs t !! Z.to_nat (row + 1);
    if decide (0 ≤ b ∧ b ≤ e)%Z then slice (t_data t) (Z.to_nat b) (Z.to_nat (e - b)) else None
  else None.

(** operator==, SparseTable.hpp:184-187. *)
Definition t_eq `{EqDecision T} (s t : table) : bool :=
  bool_decide (t_data s = t_data t) && bool_decide (t_rs s = t_rs t).

(** ** SparseVector *)

(** Members, SparseVector.hpp:179-185. *)
Record svec := SVec { v_size : Z; v_data : list T; v_idx : list Z }.

(** Constructors, SparseVector.hpp:59-69. *)
Definition sv_new (sz : Z) : svec := SVec sz [] [].

(** The checking loop SparseVector.hpp:86-94. *)
Fixpoint sv_check (last sz : Z) (idx : list Z) : bool :=
  match idx with
  | [] => true
  | i :: idx => negb (bool_decide (i ≤ last)%Z || bool_decide (sz ≤ i)%Z) && sv_check i sz idx
  end.
(** Range constructor with debug checks, SparseVector.hpp:76-96; [None] for a
    failed assertion or an exception. *)
Definition sv_construct (sz : Z) (data : list T) (idx : list Z) : option svec :=
  if decide (0 ≤ sz ∧ length idx = length data)%Z then
    if sv_check (-1) sz idx then Some (SVec sz data idx) else None
  else None.

(** addElement, SparseVector.hpp:102-108. *)
Definition sv_add (e : T) (i : Z) (v : svec) : option svec :=
  if (match list.last (v_idx v) with None => true | Some l => bool_decide (l < i)%Z end) then
    if decide (i < v_size v)%Z then Some (SVec (v_size v) (v_data v ++ [e]) (v_idx v ++ [i]))
    else None
  else None.

(** clear, SparseVector.hpp:130-135. *)
Definition sv_clear (v : svec) : svec := SVec 0 [] [].

(** std::lower_bound (the halving loop of the standard library): [fuel] bounds
    the number of iterations, [None] when exhausted or out of range. *)
Fixpoint lb_loop (fuel : nat) (l : list Z) (x : Z) (first len : nat) : option nat :=
  match fuel with
  | 0 => None
  | S fuel =>
      if decide (0 < len) then
        let half := Nat.div2 len in
        y ← l !! (first + half);
        if decide (y < x)%Z then lb_loop fuel l x (first + half + 1) (len - half - 1)
        else lb_loop fuel l x first half
      else Some first
  end.
Definition lower_bound (l : list Z) (x : Z) : option nat :=
  lb_loop (S (length l)) l x 0 (length l).

(** element, SparseVector.hpp:147-157. *)
Definition sv_element (v : svec) (i : Z) : option T :=
  if decide (0 ≤ i ∧ i < v_size v)%Z then
    lb ← lower_bound (v_idx v) i;
    if decide (lb < length (v_idx v)) then
      y ← v_idx v !! lb;
      if decide (y = i) then v_data v !! lb else Some dflt
    else Some dflt
  else None.

(** nonzeroElement, nonzeroIndex, nonzeroSize: SparseVector.hpp:124-177. *)
Definition sv_nnz (v : svec) : Z := Z.of_nat (length (v_data v)).
Definition sv_nzelem (v : svec) (k : Z) : option T :=
  if decide (0 ≤ k ∧ k < sv_nnz v)%Z then v_data v !! Z.to_nat k else None.
Definition sv_nzidx (v : svec) (k : Z) : option Z :=
  if decide (0 ≤ k ∧ k < sv_nnz v)%Z then v_idx v !! Z.to_nat k else None.
End sparse.
Arguments table T : clear implicits.
Arguments svec T : clear implicits.
