(** Implicit transport of water in a cell, stated face by face. *)
From Coq Require Import Reals.
From Verif Require Import Base GridModel TofSpec RootModel.
Local Open Scope R_scope.

(** Face [f] has a cell on both sides. *)
Definition inner (g : ugrid) (f : nat) : bool :=
  match u_facecells g !! (2 * f)%nat, u_facecells g !! (2 * f + 1)%nat with
  | Some a, Some b => bool_decide (a ≠ (-1)%Z ∧ b ≠ (-1)%Z)
  | _, _ => false
  end.
Definition inner_sum (g : ugrid) (h : nat → R) (fs : list nat) : R :=
  rsum (λ f, if inner g f then h f else 0) fs.

(** More fluid enters cell [c] (source [q]) than leaves it to other cells. *)
Definition gain (g : ugrid) (flux : list R) (q : R) (fs : list nat) (c : nat) : R :=
  q - inner_sum g (out g flux c) fs.

(** The imbalance of water over a time step, per pore volume, if the saturation
    of cell [c] goes from [s0] to [s]: change in place, plus what flows out to
    other cells with the fractional flow [F s], minus what comes in with the
    fractional flows [val] of the cells upstream; a positive source is all water,
    a negative one takes water with fraction [F s]; the last term is for fluid
    that is compressed. *)
Definition imbalance (g : ugrid) (flux : list R) (dt p q : R) (fs : list nat) (c : nat)
    (val : nat → R) (F : R → R) (s0 s : R) : R :=
  s - s0 + dt / p *
    (inner_sum g (λ f, if Rlt_dec (out g flux c f) 0 then out g flux c f * carried g flux val f else out g flux c f * F s) fs
     + Rmax (- q) 0 * F s - Rmax q 0 + s * gain g flux q fs c).

(** Intervals inside [[a,b]] in which [r] changes its sign, each inside the one
    before and shorter. *)
Record enclosing (r : R → R) (a b : R) (hs : list (R * R)) : Prop := {
  en_sign : ∀ h, h ∈ hs → r h.1 * r h.2 < 0 ∧ a <= h.1 <= b ∧ a <= h.2 <= b;
  en_shrink : ∀ i h h', hs !! i = Some h → hs !! S i = Some h' →
    Rmin h.1 h.2 <= h'.1 <= Rmax h.1 h.2 ∧ Rmin h.1 h.2 <= h'.2 <= Rmax h.1 h.2 ∧
    Rabs (h'.2 - h'.1) < Rabs (h.2 - h.1) }.
(** How well an equation [r s = 0] is solved in [[a,b]]: the residual is small
    compared to the one in [e], or [s] is the midpoint of the last of such
    intervals, which is either narrow or comes after more than [maxit] steps. *)
Definition settled (tol : R) (maxit : Z) (r : R → R) (a b e s : R) : Prop :=
  Rabs (r s) < tol + macheps * Rmax (Rabs (r e)) 1 ∨
  ∃ hs u v, enclosing r a b hs ∧ last hs = Some (u, v) ∧ s = (u + v) / 2 ∧
    (Rabs (v - u) < / 1000000000 * (tol + macheps) ∨ (maxit < Z.of_nat (length hs))%Z).

(** Two-phase properties: viscosities, and relative permeabilities [kr] of cell
    [c] for water saturation [s]; immobile water at 0, immobile oil at 1. *)
Record fluid_ok (kr : nat → R → R → R * R) (visc_w visc_o : R) : Prop := {
  fl_visc_w : 0 < visc_w;
  fl_visc_o : 0 < visc_o;
  fl_pos : ∀ c s, 0 <= s <= 1 → 0 <= (kr c s (1 - s)).1 ∧ 0 <= (kr c s (1 - s)).2 ∧
                  0 < (kr c s (1 - s)).1 + (kr c s (1 - s)).2;
  fl_no_water : ∀ c, (kr c 0 (1 - 0)).1 = 0;
  fl_no_oil : ∀ c, (kr c 1 (1 - 1)).2 = 0 }.

(** The fractional flow of water. *)
Definition fraction (kr : nat → R → R → R * R) (visc_w visc_o : R) (c : nat) (s : R) : R :=
  let w := (kr c s (1 - s)).1 / visc_w in let o := (kr c s (1 - s)).2 / visc_o in w / (w + o).
