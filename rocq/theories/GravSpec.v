(** Segregation of two phases in a column of cells, stated interface by
    interface. *)
From Coq Require Import Reals.
From Verif Require Import Base TwoSpec.
Local Open Scope R_scope.

(** Half the harmonic mean, 0 if both are 0. *)
Definition blend (a b : R) : R := if Rlt_dec 0 (a + b) then a * b / (a + b) else 0.
(** Water that enters the first of two cells from the second per time, for
    (water, oil) mobilities [m1] and [m2] and the gravity flux [G]: the water is
    that of the cell it leaves, the oil that of the other cell. *)
Definition segregate (G : R) (m1 m2 : R * R) : R :=
  if Rlt_dec G 0 then G * blend m1.1 m2.2 else G * blend m2.1 m1.2.
(** The imbalance of water in the cell at position [i] of a column of [n] cells
    if its saturation goes from [s0] to [s]: [m] gives its mobilities, [M] those of
    the other cells, [G] the gravity fluxes between each cell and the next, [dtp]
    is the time step over the pore volume. *)
Definition column_imbalance (n : nat) (G : nat → R) (M : nat → R * R) (i : nat) (dtp s0 : R) (m : R → R * R) (s : R) : R :=
  s - s0 - dtp * ((if decide (0 < i)%nat then segregate (- G (i - 1)%nat) (m s) (M (i - 1)%nat) else 0)
                  + (if decide (S i < n)%nat then segregate (G i) (m s) (M (S i)) else 0)).

(** Solved as it was, or by the root finder. *)
Definition segregated (tol : R) (maxit : Z) (r : R → R) (lo hi s0 s : R) : Prop :=
  (s = s0 ∧ Rabs (r s0) <= tol) ∨ settled tol maxit r lo hi lo s.

(** The mobilities of a cell. *)
Definition mobilities (kr : nat → R → R → R * R) (visc_w visc_o : R) (c : nat) (s : R) : R * R :=
  ((kr c s (1 - s)).1 / visc_w, (kr c s (1 - s)).2 / visc_o).
(** Properties and ranges of saturation: no water flows at the lower end, no oil
    at the upper end. *)
Record segregation_ok (nc : nat) (kr : nat → R → R → R * R) (visc_w visc_o : R) (smin smax : list R) : Prop := {
  sg_visc_w : 0 < visc_w;
  sg_visc_o : 0 < visc_o;
  sg_min : length smin = nc;
  sg_max : length smax = nc;
  sg_cell : ∀ c lo hi, smin !! c = Some lo → smax !! c = Some hi →
    0 <= lo <= hi ∧ hi <= 1 ∧ (kr c lo (1 - lo)).1 = 0 ∧ (kr c hi (1 - hi)).2 = 0 ∧
    ∀ s, lo <= s <= hi → 0 <= (kr c s (1 - s)).1 ∧ 0 <= (kr c s (1 - s)).2 }.
