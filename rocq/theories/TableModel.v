(** Model of the interpolation tables:
    opm/core/utility/UniformTableLinear.hpp, linearInterpolation.hpp and
    NonuniformTableLinear.hpp.

    double is modelled by the real numbers [R]: no rounding, no infinities, no
    NaN.  Reading outside of a vector is undefined ([None]); so is a division
    by zero, which the code would turn into an infinity or NaN. *)
From Coq Require Import Reals.
From Verif Require Import Base.
Local Open Scope R_scope.

(** Access with an [int] index. *)
Definition at_int {A} (l : list A) (i : Z) : option A :=
  if decide (0 <= i)%Z then l !! Z.to_nat i else None.
Definition rdiv (a b : R) : option R := if Req_EM_T b 0 then None else Some (a / b).

(** ** UniformTableLinear<double> *)
(** Data members, UniformTableLinear.hpp:96-101; the range policies can only
    be ClosestValue and are left out. *)
Record utable := UTable { ut_xmin : R; ut_xmax : R; ut_xdelta : R; ut_y : list R }.

(** Constructors, UniformTableLinear.hpp:117-146; the two differ only in how
    the values are passed.  A failed ASSERT is undefined. *)
Definition ut_make (xmin xmax : R) (y_values : list R) : option utable :=
  if Rgt_dec xmax xmin then
    if decide (1 < length y_values)%nat then
      Some (UTable xmin xmax ((xmax - xmin) / INR (length y_values - 1)) y_values)
    else None
  else None.

(** rescaleDomain, UniformTableLinear.hpp:155-164. *)
Definition ut_rescale (t : utable) (new_domain : R * R) : utable :=
  UTable new_domain.1 new_domain.2 ((new_domain.2 - new_domain.1) / INR (length (ut_y t) - 1)) (ut_y t).

(** operator(), UniformTableLinear.hpp:165-185. *)
Definition ut_eval (t : utable) (xparam : R) : option R :=
  let x := Rmin xparam (ut_xmax t) in
  let x := Rmax x (ut_xmin t) in
  pos ← rdiv (x - ut_xmin t) (ut_xdelta t);
  let posi := IZR (Int_part pos) in
  let left := Int_part pos in
  if decide (left = Z.of_nat (length (ut_y t)) - 1)%Z then last (ut_y t) else
  let w := pos - posi in
  y0 ← at_int (ut_y t) left;
  y1 ← at_int (ut_y t) (left + 1);
  Some ((1 - w) * y0 + w * y1).

(** derivative, UniformTableLinear.hpp:186-212. *)
Definition ut_derivative (t : utable) (xparam : R) : option R :=
  if Rgt_dec xparam (ut_xmax t) then Some 0 else
  if Rlt_dec xparam (ut_xmin t) then Some 0 else
  let x := Rmin xparam (ut_xmax t) in
  let x := Rmax x (ut_xmin t) in
  pos ← rdiv (x - ut_xmin t) (ut_xdelta t);
  let left := Int_part pos in
  let left := if decide (left = Z.of_nat (length (ut_y t)) - 1)%Z then (left - 1)%Z else left in
  y1 ← at_int (ut_y t) (left + 1);
  y0 ← at_int (ut_y t) left;
  rdiv (y1 - y0) (ut_xdelta t).

(** ** linearInterpolation.hpp *)
(** The loop of tableIndex, linearInterpolation.hpp:43-50. *)
Fixpoint index_loop (fuel : nat) (table : list R) (x : R) (ascend : bool) (jl ju : nat) : option nat :=
  if decide (1 < ju - jl)%nat then
    match fuel with
    | 0%nat => None
    | S fuel =>
        let jm := ((ju + jl) / 2)%nat in
        t ← table !! jm;
        if bool_decide ((if Rge_dec x t then true else false) = ascend)
        then index_loop fuel table x ascend jm ju
        else index_loop fuel table x ascend jl jm
    end
  else Some jl.

(** tableIndex, linearInterpolation.hpp:31-52; n is the signed size minus one. *)
Definition table_index (fuel : nat) (table : list R) (x : R) : option nat :=
  let n := (length table - 1)%nat in
  if decide (n < 2)%nat then Some 0%nat else
  tn ← table !! n;
  t0 ← table !! 0%nat;
  index_loop fuel table x (if Rgt_dec tn t0 then true else false) 0 n.

(** linearInterpolationDerivative, linearInterpolation.hpp:55-62. *)
Definition linear_derivative (fuel : nat) (xv yv : list R) (x : R) : option R :=
  ix1 ← table_index fuel xv x;
  let ix2 := (ix1 + 1)%nat in
  y2 ← yv !! ix2; y1 ← yv !! ix1; x2 ← xv !! ix2; x1 ← xv !! ix1;
  rdiv (y2 - y1) (x2 - x1).

(** linearInterpolation, linearInterpolation.hpp:64-81; the second overload
    also returns the index. *)
Definition linear_interpolation (fuel : nat) (xv yv : list R) (x : R) : option R :=
  ix1 ← table_index fuel xv x;
  let ix2 := (ix1 + 1)%nat in
  y2 ← yv !! ix2; y1 ← yv !! ix1; x2 ← xv !! ix2; x1 ← xv !! ix1;
  s ← rdiv (y2 - y1) (x2 - x1);
  Some (s * (x - x1) + y1).

(** ** NonuniformTableLinear<double> *)
(** Data members, NonuniformTableLinear.hpp:83-86. *)
Record ntable := NTable { nt_x : list R; nt_y : list R; nt_xrev : list R; nt_yrev : list R }.

(** isNondecreasing, NonuniformTableLinear.hpp:97-112. *)
Fixpoint is_nondecreasing (l : list R) : bool :=
  match l with
  | prev :: (it :: _) as l' => if Rlt_dec it prev then false else is_nondecreasing l'
  | _ => true
  end.

(** Constructor, NonuniformTableLinear.hpp:123-131. *)
Definition nt_make (x_values y_values : list R) : option ntable :=
  if is_nondecreasing x_values then Some (NTable x_values y_values [] []) else None.

(** rescaleDomain, NonuniformTableLinear.hpp:141-155; all elements are read
    before any is written only for a and b, so this is a map. *)
Definition nt_rescale (t : ntable) (new_domain : R * R) : option ntable :=
  a ← nt_x t !! 0%nat;
  b ← last (nt_x t);
  let '(c, d) := new_domain in
  x ← mapM (λ xi, q ← rdiv ((xi - a) * (d - c)) (b - a); Some (q + c)) (nt_x t);
  Some (NTable x (nt_y t) (nt_xrev t) (nt_yrev t)).

(** operator(), NonuniformTableLinear.hpp:156-162, derivative, 164-170. *)
Definition nt_eval fuel (t : ntable) (x : R) : option R := linear_interpolation fuel (nt_x t) (nt_y t) x.
Definition nt_derivative fuel (t : ntable) (x : R) : option R := linear_derivative fuel (nt_x t) (nt_y t) x.

(** inverse, NonuniformTableLinear.hpp:172-190; it also changes the mutable
    members. *)
Definition nt_inverse fuel (t : ntable) (y : R) : option (R * ntable) :=
  f ← head (nt_y t);
  b ← last (nt_y t);
  if Rlt_dec f b then
    r ← linear_interpolation fuel (nt_y t) (nt_x t) y; Some (r, t)
  else
    t ← (match nt_yrev t with
         | [] => let yr := reverse (nt_y t) in
                 if is_nondecreasing yr then Some (NTable (nt_x t) (nt_y t) (reverse (nt_x t)) yr) else None
         | _ => Some t
         end);
    r ← linear_interpolation fuel (nt_yrev t) (nt_xrev t) y; Some (r, t).
