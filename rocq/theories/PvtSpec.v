(** What is expected of properties that depend on pressure. *)
From Coq Require Import Reals.
From Verif Require Import Base TableModel TofSpec MiscSpec UTableProof NTableProof PvtModel.
Local Open Scope R_scope.

(** [f] is defined at [x] with value [v], and changes there at rate [d]. *)
Definition value_rate (f : R → option R) (x v d : R) : Prop :=
  f x = Some v ∧ (∃ δ, 0 < δ ∧ ∀ t, Rabs (t - x) < δ → is_Some (f t)) ∧ derivable_pt_lim (λ t, default 0 (f t)) x d.
(** A table with at least two rows and strictly increasing or strictly decreasing first
    column. *)
Definition good_table (t : list (list R)) : Prop :=
  ∃ x b m s, t = [x; b; m] ∧ (2 ≤ length x)%nat ∧ length b = length x ∧ length m = length x ∧ ordered s x.
(** Tables of oil or gas: the saturated one has columns pressure, 1/B (B for gas),
    viscosity and solution factor; there is one further table for each of its rows. *)
Record live_tables (L : live) (ps bs ms rs : list R) : Prop := {
  lt_sat : lv_sat L = [ps; bs; ms; rs];
  lt_len : (2 ≤ length ps)%nat ∧ length bs = length ps ∧ length ms = length ps ∧ length rs = length ps;
  lt_ps : ordered 1 ps;
  lt_und : length (lv_und L) = length ps ∧ Forall good_table (lv_und L) }.
(** Piecewise linear interpolation of values [ys] given at [xs], extrapolated. *)
Definition through (xs ys : list R) (x : R) : R := default 0 (linear_interpolation (length xs) xs ys x).
(** The other quantity of a table: 1 is (1/)B, 2 the viscosity. *)
Definition item_of (bs ms : list R) (item : nat) : list R := match item with 1%nat => bs | _ => ms end.

(** What tables of column [item] give at the solution factor [r]. *)
Definition at_factor (und : list (list (list R))) (item : nat) (r : R) : list R :=
  map (λ t, match t !! 0%nat, t !! item with Some x, Some y => through x y r | _, _ => 0 end) und.
(** The values at one point with pressure [p], surface volumes [z]. *)
Definition mu_at (x : pvt) (pos : list nat) (p : R) (z : list R) : option R :=
  match x with PConst c => cc_mu c p | PDead d => dd_mu d p | POil L => miscible_oil L pos p z 2 false | PGas G => miscible_gas G pos p z 2 false end.
Definition B_at (x : pvt) (pos : list nat) (p : R) (z : list R) : option R :=
  match x with PConst c => cc_B c p | PDead d => dd_B d p | POil L => oil_B L pos p z | PGas G => gas_B G pos p z end.
Definition R_at (x : pvt) (pos : list nat) (p : R) (z : list R) : option R :=
  match x with PConst _ | PDead _ => Some 0 | POil L => oil_R L pos p z | PGas G => gas_R G pos p z end.
Definition dR_at (x : pvt) (pos : list nat) (p : R) (z : list R) : option (R * R) :=
  match x with PConst _ | PDead _ => Some (0, 0) | POil L => oil_dR L pos p z | PGas G => gas_dR G pos p z end.
Definition dB_at (x : pvt) (pos : list nat) (p : R) (z : list R) : option (R * R) :=
  match x with
  | PConst c => cc_dB c p
  | PDead d => b ← dd_B d p; s ← KrModel.td (dd_inv d) p; Some (b, - b * b * s)
  | POil L => oil_dB L pos p z | PGas G => gas_dB G pos p z
  end.
