(** What is expected of saturation functions. *)
From Coq Require Import Reals.
From Verif Require Import Base TofSpec MiscSpec PhaseModel KrModel.
Local Open Scope R_scope.

(** ** Tables *)
(** The function of a table; it is defined everywhere; its slope at [x] is [v] and
    derivative() says so. *)
Definition tab (t : table) (x : R) : R := default 0 (tv t x).
Definition defined (t : table) : Prop := ∀ x, is_Some (tv t x).
Definition slope (t : table) (x v : R) : Prop := td t x = Some v ∧ derivable_pt_lim (tab t) x v.
Definition has_slope (t : table) (x : R) : Prop := ∃ v, slope t x v.
(** Values between 0 and 1. *)
Definition unit_valued (t : table) : Prop := ∀ x, 0 <= tab t x <= 1.

(** ** Phases *)
(** The phases come from a deck: oil with water ([w]), gas ([g]) or both. *)
Definition phases (F : satfunc) (w g : bool) : Prop := ∃ ju jp has, length ju = 3%nat ∧ length jp = 3%nat ∧
  phase_usage_from_deck ju jp has = Some (sf_pu F) ∧ has WATER = w ∧ has GAS = g.
Definition tables_defined (F : satfunc) : Prop := defined (sf_krw F) ∧ defined (sf_krow F) ∧ defined (sf_krg F) ∧ defined (sf_krog F).

(** ** Derivatives *)
(** The point reached from [s] after time [t] in direction [d]. *)
Definition along (s d : list R) (t : R) : list R := zip_with (λ a b, a + t * b) s d.
(** The value of component [p] of [f] changes at rate [v] when [s] moves in
    direction [d]. *)
Definition changes (f : list R → option (list R)) (s d : list R) (p : nat) (v : R) : Prop :=
  ∃ g δ, 0 < δ ∧ (∀ t, Rabs t < δ → ∃ k, f (along s d t) = Some k ∧ k !! p = Some (g t)) ∧ derivable_pt_lim g 0 v.
(** Row [p] of a matrix stored by columns, times [d]. *)
Definition row (np : nat) (M : list R) (p : nat) (d : list R) : R := rsum (λ q, val M (p + q * np) * val d q) (seq 0 np).
(** The first [np] components of [d] add up to 0: the saturations keep their sum. *)
Definition keeps_sum (np : nat) (d : list R) : Prop := rsum (val d) (seq 0 np) = 0.

(** ** Stone's second model *)
Definition stone_oil (krocw krw krow krg krog : R) : R := krocw * ((krow / krocw + krw) * (krog / krocw + krg) - krw - krg).
