(** What is expected of end-point scaling. *)
From Coq Require Import Reals.
From Verif Require Import Base TofSpec MiscSpec.
Local Open Scope R_scope.

(** The points of a relative permeability curve: the critical saturation, 1 minus
    the critical saturation of the other phase and the largest saturation, with the
    values at the last two. *)
Record points := Points { p_cr : R; p_r : R; p_mx : R; p_kr : R; p_k : R }.
(** A curve through these points: nondecreasing, 0 up to the critical saturation,
    constant from the largest saturation on. *)
Record curve (dom : R → Prop) (p : points) (f : R → R) : Prop := {
  cv_mono : ∀ x z, dom x → dom z → x <= z → f x <= f z;
  cv_cr : ∀ x, dom x → x <= p_cr p → f x = 0;
  cv_r : dom (p_r p) → f (p_r p) = p_kr p;
  cv_mx : ∀ x, dom x → p_mx p <= x → f x = p_k p }.
(** The number for a cell: of the array if there is one, otherwise [d]. *)
Definition eff (arr : list R) (cell : nat) (d : R) : R := match arr with [] => d | _ => val arr cell end.
Definition has (arr : list R) (cell : nat) : Prop := arr = [] ∨ (cell < length arr)%nat.
(** Saturations between given bounds; all saturations. *)
Definition between (a b x : R) : Prop := a <= x <= b.
Definition anywhere (_ : R) : Prop := True.

(** The points after scaling.  In the mode with two points the middle one follows
    the others; its value is that of the array, or in proportion to the largest
    value.  If in that mode the middle and the last point nearly coincide, the array
    for the middle one is disregarded. *)
Definition middle (three : bool) (cr r mx : list R) (t : points) (cell : nat) : R :=
  if three then eff r cell (p_r t)
  else eff cr cell (p_cr t) + (p_r t - p_cr t) * (eff mx cell (p_mx t) - eff cr cell (p_cr t)) / (p_mx t - p_cr t).
Definition near (three : bool) (cr r mx : list R) (t : points) (cell : nat) : Prop :=
  eff mx cell (p_mx t) - / 1000000 < middle three cr r mx t cell.
Definition proportional (k : list R) (t : points) (cell : nat) : R := match k with [] => p_kr t | _ => p_kr t * (val k cell / p_k t) end.
Definition middle_value (three : bool) (cr r mx k kr : list R) (t : points) (cell : nat) : R :=
  match kr with
  | [] => proportional k t cell
  | _ => if three then val kr cell else if Rlt_dec (eff mx cell (p_mx t) - / 1000000) (middle three cr r mx t cell) then proportional k t cell else val kr cell
  end.
Definition scaled (three : bool) (cr r mx k kr : list R) (t : points) (cell : nat) : points :=
  Points (eff cr cell (p_cr t)) (middle three cr r mx t cell) (eff mx cell (p_mx t)) (middle_value three cr r mx k kr t cell) (eff k cell (p_k t)).
(** Without scaling of saturations only those of the table are allowed. *)
Definition allowed (cr mx : list R) (lo hi : R) : R → Prop := match cr, mx with [], [] => between lo hi | _, _ => anywhere end.
(** The scaling makes sense: the scaled points are in order; what is divided by is not
    zero; in the mode with three points the point in the middle is not moved alone, and
    does not nearly coincide with the last if its value is given; if they nearly
    coincide in the mode with two points, the largest value is given and the array
    [tested] is there. *)
Record proper (three : bool) (cr r mx k kr tested : list R) (t : points) (cell : nat) : Prop := {
  pr_has : has cr cell ∧ has r cell ∧ has mx cell ∧ has k cell ∧ has kr cell;
  pr_order : let q := scaled three cr r mx k kr t cell in p_cr q < p_r q ∧ p_r q <= p_mx q ∧ (p_r q < p_mx q ∨ p_r t = p_mx t) ∧ 0 <= p_kr q <= p_k q;
  pr_alone : three = true → cr = [] → mx = [] → r = [];
  pr_div : (kr = [] → k ≠ [] → 0 < p_k t) ∧ (kr ≠ [] → 0 < p_kr t);
  pr_near : kr ≠ [] → near three cr r mx t cell → three = false ∧ k ≠ [] ∧ tested ≠ [] }.
