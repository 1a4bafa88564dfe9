(** What decks of live oil and live gas are, and what tables are expected of them. *)
From Coq Require Import Reals.
From Verif Require Import Base TofSpec MiscSpec NTableProof PvtModel PvtSpec.
Local Open Scope R_scope.

(** A record: one number, then [m] rows of three. *)
Definition rows (r : list R) (m : nat) : Prop := length r = (3 * m + 1)%nat.
(** The table of its rows: column 0 as given, column 1 inverted or not, column 2. *)
Definition table_of (inv : bool) (r : list R) (m : nat) : list (list R) :=
  [map (λ j, val r (3 * j + 1)) (seq 0 m); map (λ j, if inv then 1 / val r (3 * j + 2) else val r (3 * j + 2)) (seq 0 m); map (λ j, val r (3 * j + 3)) (seq 0 m)].
(** PVTO: each record is Rs and rows of pressure, B and viscosity; pressures increase
    along a record; saturated pressures and Rs increase from record to record; the last
    record has undersaturated rows. *)
Record good_pvto (recs : list (list R)) : Prop := {
  po_len : (2 ≤ length recs)%nat;
  po_rec : ∀ r, r ∈ recs → ∃ m, (1 ≤ m)%nat ∧ rows r m ∧ (∀ j, (j < m)%nat → val r (3 * j + 2) ≠ 0) ∧ ∀ j k, (j < k < m)%nat → val r (3 * j + 1) < val r (3 * k + 1);
  po_inc : ∀ i j a b, (i < j)%nat → recs !! i = Some a → recs !! j = Some b → val a 1 < val b 1 ∧ val a 0 < val b 0;
  po_last : ∀ r, last recs = Some r → (7 ≤ length r)%nat }.
(** PVTG: each record is a pressure and rows of Rv, B and viscosity; Rv decreases along a
    record; pressures increase from record to record; each record has at least two rows. *)
Record good_pvtg (recs : list (list R)) : Prop := {
  pg_len : (2 ≤ length recs)%nat;
  pg_rec : ∀ r, r ∈ recs → ∃ m, (2 ≤ m)%nat ∧ rows r m ∧ ∀ j k, (j < k < m)%nat → val r (3 * k + 1) < val r (3 * j + 1);
  pg_inc : ∀ i j a b, (i < j)%nat → recs !! i = Some a → recs !! j = Some b → val a 0 < val b 0 }.
(** Column [k] of the first rows. *)
Definition firsts (recs : list (list R)) (k : nat) : list R := map (λ r, val r k) recs.
Definition firsts_inv (recs : list (list R)) (k : nat) : list R := map (λ r, 1 / val r k) recs.

(** The slopes of the two other columns on some segment of a table. *)
Definition segment (t : list (list R)) (s : R * R) : Prop :=
  ∃ ps bs vs i p q b c v u, t = [ps; bs; vs] ∧ ps !! i = Some q ∧ ps !! S i = Some p ∧ bs !! i = Some c ∧ bs !! S i = Some b ∧ vs !! i = Some u ∧ vs !! S i = Some v ∧ s = ((b - c) / (p - q), (v - u) / (p - q)).
(** Slopes between those of two tables, with weight [w]. *)
Definition between (t0 t1 : list (list R)) (w : R) (s : R * R) : Prop :=
  ∃ s0 s1, segment t0 s0 ∧ segment t1 s1 ∧ s = (fst s0 + w * (fst s1 - fst s0), snd s0 + w * (snd s1 - snd s0)).
(** Rows that follow the row (p, b, v), such that each step has slopes in [P]. *)
Fixpoint sloped (P : R * R → Prop) (p b v : R) (d0 d1 d2 : list R) : Prop :=
  match d0, d1, d2 with
  | x :: d0, y :: d1, z :: d2 => (∃ s, P s ∧ y = b + (x - p) * fst s ∧ z = v + (x - p) * snd s) ∧ sloped P x y z d0 d1 d2
  | [], [], [] => True
  | _, _, _ => False
  end.
