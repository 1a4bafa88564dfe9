(** The discrete upwind equations, stated face by face. *)
From Coq Require Import Reals.
From Verif Require Import Base GridModel.
Local Open Scope R_scope.

Fixpoint rsum {A} (h : A → R) (l : list A) : R :=
  match l with [] => 0 | f :: l => h f + rsum h l end.

Section spec.
Variable g : ugrid.
Variable flux : list R.

(** Signed flux out of cell [c] through its face [f]. *)
Definition out (c f : nat) : R :=
  match u_facecells g !! (2 * f)%nat, flux !! f with
  | Some a, Some d => if decide (a = Z.of_nat c) then d else - d
  | _, _ => 0
  end.
(** The cell upstream of face [f]; -1 is the outside. *)
Definition upstream (f : nat) : Z :=
  match u_facecells g !! (2 * f)%nat, u_facecells g !! (2 * f + 1)%nat, flux !! f with
  | Some a, Some b, Some d => if Rlt_dec 0 d then a else b
  | _, _, _ => (-1)%Z
  end.
(** The value of a quantity carried through face [f], nothing from outside. *)
Definition carried (val : nat → R) (f : nat) : R :=
  if decide (upstream f = (-1)%Z) then 0 else val (Z.to_nat (upstream f)).

(** Flux leaving cell [c] (including its sink), and entering from other cells. *)
Definition outflow (src : R) (fs : list nat) (c : nat) : R :=
  Rmax (- src) 0 + rsum (λ f, Rmax (out c f) 0) fs.
Definition inflow_internal (fs : list nat) (c : nat) : R :=
  rsum (λ f, if decide (upstream f = (-1)%Z) then 0 else Rmax (- out c f) 0) fs.

(** Balance of [val] in cell [c]: what leaves through the faces (negative where
    it enters) and the sink equals [rhs]. *)
Definition balance (val : nat → R) (src rhs : R) (fs : list nat) (c : nat) : Prop :=
  rsum (λ f, out c f * carried val f) fs + Rmax (- src) 0 * val c = rhs.
End spec.
