(** C62: what sources, pressure drops, rates and reports of wells should be, in
    terms of the wells as their client describes them (WellsSpec). *)
From Coq Require Import Reals.
From Verif Require Import Base TofSpec WellsModel WellsSpec MiscSpec.
Local Open Scope R_scope.

(** A well that is a source of strength [rate] in [cell]: one perforation,
    controlled by the total reservoir rate; an injector counts with its water. *)
Definition simple_well {N} (nc : nat) (aw : @awell R N) (cell : nat) (rate : R) : Prop :=
  (cell < nc)%nat ∧ (∃ wi, aw_perfs aw = [(Z.of_nat cell, wi)]) ∧
  ∃ k target water, aw_current aw = Z.of_nat k ∧ aw_ctrls aw !! k = Some (ACtrl RESERVOIR_RATE target [1; 1]) ∧ aw_frac aw !! 0%nat = Some water ∧
    rate = match aw_type aw with INJECTOR => target * water | PRODUCER => target end.

Definition sum_list (l : list R) : R := rsum (λ x, x) l.
(** The perforations of the wells before [w]. *)
Definition before {N} (ws : list (@awell R N)) (w : nat) : nat := length (concat (map aw_perfs (take w ws))).
(** Rates [qs], one list for each well, one rate for each perforation. *)
Definition rates_of {N} (ws : list (@awell R N)) (qs : list (list R)) : Prop := Forall2 (λ aw q, length q = length (aw_perfs aw)) ws qs.
(** The cell of a perforation. *)
Definition pcell (p : Z * R) : nat := Z.to_nat p.1.
(** The perforations of a well with rates [q] contribute [h cell rate] each. *)
Definition over {N} (aw : @awell R N) (q : list R) (h : nat → R → R) : R := rsum (λ pq, h (pcell pq.1) pq.2) (zip (aw_perfs aw) q).
(** All perforations are in cells. *)
Definition in_cells {N} (nc : nat) (ws : list (@awell R N)) : Prop := ∀ aw p, aw ∈ ws → p ∈ aw_perfs aw → (0 ≤ p.1 < Z.of_nat nc)%Z.
(** The mean of [x], weighted by [weight]. *)
Definition mean_by (weight x : list R) : R := rsum (λ p, val weight p * val x p) (seq 0 (length weight)) / sum_list weight.
(** Water of a well: an injecting perforation counts with the composition of the
    injected fluid, a producing one with the fractional flow [F] of its cell;
    water cut. *)
Definition water_of {N} (aw : @awell R N) (q : list R) (F : nat → R) : R := over aw q (λ c x, x * (if Rlt_dec 0 x then val (aw_frac aw) 0 else F c)).
Definition cut_of {N} (aw : @awell R N) (q : list R) (F : nat → R) : R := if Req_EM_T (sum_list q) 0 then 0 else water_of aw q F / sum_list q.
(** A row of the report: time in days; for each well its pressure in bar, its
    rate per day and its water cut. *)
Definition row_of {N} (ws : list (@awell R N)) (qs : list (list R)) (bhp : list R) (time : R) (F : nat → R) (row : list R) : Prop :=
  length row = (1 + 3 * length ws)%nat ∧ row !! 0%nat = Some (time / 86400) ∧
  ∀ w aw q p, ws !! w = Some aw → qs !! w = Some q → bhp !! w = Some p →
    row !! (3 * w + 1)%nat = Some (p / 100000) ∧ row !! (3 * w + 2)%nat = Some (sum_list q * 86400) ∧ row !! (3 * w + 3)%nat = Some (cut_of aw q F).
