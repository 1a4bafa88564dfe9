(** Sums over cells, phases, faces and perforations. *)
From Coq Require Import Reals Lra.
From Verif Require Import Base TofSpec.
From Verif Require GridModel WellsModel.
Local Open Scope R_scope.

Definition val (l : list R) (i : nat) : R := default 0 (l !! i).
(** The volume of phase [p]. *)
Definition volume (np : nat) (pv s : list R) (p : nat) : R := rsum (λ c, val pv c * val s (np * c + p)) (seq 0 (length pv)).
Definition total (l : list R) : R := rsum (val l) (seq 0 (length l)).

(** The mobility of phase [p] with the saturations number [i] in cell [c]; its
    share. *)
Definition sats (np : nat) (s : list R) (i : nat) : list R := take np (drop (np * i) s).
Definition mob (relperm : list R → nat → list R) (visc : list R) (np : nat) (s : list R) (i c p : nat) : R := val (relperm (sats np s i) c) p / val visc p.
Definition totmob (relperm : list R → nat → list R) (visc : list R) (np : nat) (s : list R) (i c : nat) : R := rsum (mob relperm visc np s i c) (seq 0 np).
Definition share (relperm : list R → nat → list R) (visc : list R) (np : nat) (s : list R) (i c p : nat) : R := mob relperm visc np s i c p / totmob relperm visc np s i c.

(** Inflow counts with the fraction of water, outflow in full. *)
Definition weigh (frac x : R) : R := if Rlt_dec 0 x then frac * x else x.
(** What enters cell [c] from outside through face [f]. *)
Definition entering (g : GridModel.ugrid) (flux : list R) (c f : nat) : R :=
  match GridModel.u_facecells g !! (2 * f)%nat, GridModel.u_facecells g !! (2 * f + 1)%nat with
  | Some a, Some b => if decide (a = Z.of_nat c ∧ b = (-1)%Z) then - val flux f else if decide (a = (-1)%Z ∧ b = Z.of_nat c) then val flux f else 0
  | _, _ => 0
  end.
(** The perforations, each with its well. *)
Definition perforations {N} (W : @WellsModel.wells R N) : list (nat * nat) :=
  concat (map (λ w, map (pair w) (seq (default 0%nat (WellsModel.w_connpos W !! w)) (default 0%nat (WellsModel.w_connpos W !! S w) - default 0%nat (WellsModel.w_connpos W !! w)))) (seq 0 (WellsModel.w_nw W))).
(** What perforation [p] of well [w] puts into its cell: the water of an
    injector, all that a well takes out, nothing for a producer that injects. *)
Definition perf_source {N} (W : @WellsModel.wells R N) (rates : list R) (w p : nat) : R :=
  if Rlt_dec 0 (val rates p) then
    if decide (WellsModel.w_type W !! w = Some WellsModel.INJECTOR) then val rates p * val (WellsModel.w_comp_frac W) (2 * w) else 0
  else val rates p.
