(** The half-faces (cell, position in cell_faces) of a grid. *)
From Coq Require Import Reals Lra.
From Verif Require Import Base GridModel GridSpec CsrSpec CsrProof TofSpec TofProof AccModel AccProof.

(** Position [i] of cell_faces belongs to cell [c] and names face [f]. *)
Definition half (g : ugrid) (c f i : nat) : Prop :=
  ∃ b e, u_facepos g !! c = Some b ∧ u_facepos g !! S c = Some e ∧ b ≤ i < e ∧ u_cellfaces g !! i = Some f.

Section half.
Context (g : ugrid) (cf : list (list nat)) (Hg : grid_ok g cf).

Lemma half_row c i : (c, i) ∈ halves 0 0 cf → ∃ r b t f, cf !! c = Some r ∧ u_facepos g !! c = Some b ∧
  u_facepos g !! S c = Some (b + length r) ∧ i = b + t ∧ r !! t = Some f ∧ u_cellfaces g !! i = Some f.
Proof using Hg.
  intros (k & r & b & -> & Hr & Hb & Hi)%halves_elem.
  destruct (holds_rows_unique _ _ _ (ok_rows _ _ Hg)) as [E1 E2].
  destruct (starts_rows 0 [] cf k r eq_refl Hr) as (b' & Hb' & He & Hs & Hle).
  rewrite Hb in Hb'. injection Hb' as <-. simpl in Hs.
  destruct (lookup_lt_is_Some_2 r (i - b)) as [f Hf]; [lia|].
  exists r, b, (i - b), f. rewrite E1, E2. split_and!; try done; try lia.
  rewrite <- Hf. replace i with (b + (i - b)) at 1 by lia.
  assert (G : ∀ n l o (r : list nat) t, slice l o n = Some r → t < n → l !! (o + t) = r !! t).
  { clear. induction n as [|n IH]; intros l o r t Hs Ht; [lia|]. simpl in Hs.
    destruct (l !! o) as [x|] eqn:Ex; [|done]. cbn [mbind option_bind] in Hs.
    destruct (slice l (S o) n) as [xs|] eqn:Exs; [|done]. cbn [mbind option_bind] in Hs. injection Hs as <-.
    destruct t as [|t]; [by rewrite Nat.add_0_r|]. simpl. rewrite <- (IH _ _ _ t Exs) by lia. f_equal. lia. }
  eapply G; [exact Hs|lia].
Qed.
Lemma half_iff c f i : half g c f i ↔ (c, i) ∈ halves 0 0 cf ∧ u_cellfaces g !! i = Some f.
Proof using Hg.
  destruct (holds_rows_unique _ _ _ (ok_rows _ _ Hg)) as [E1 E2]. split.
  - intros (b & e & Hb & He & Hi & Hf). split; [|done]. apply halves_elem.
    rewrite E1 in Hb, He. destruct (cf !! c) as [r|] eqn:Er.
    + destruct (starts_rows 0 [] cf c r eq_refl Er) as (b' & Hb' & He' & _).
      rewrite Hb in Hb'. injection Hb' as <-. rewrite He in He'. injection He' as ->.
      exists c, r, b. done.
    + apply lookup_ge_None in Er. apply lookup_lt_Some in He. rewrite starts_length in He. lia.
  - intros [H Hf]. apply half_row in H as (r & b & t & f' & Hr & Hb & He & -> & Ht & Hf').
    exists b, (b + length r). apply lookup_lt_Some in Ht. split_and!; try done; lia.
Qed.
Lemma half_lt c i : (c, i) ∈ halves 0 0 cf → c < u_nc g ∧ i < length (u_cellfaces g).
Proof using Hg.
  intros (r & b & t & f & Hr & _ & _ & _ & _ & Hf)%half_row. apply lookup_lt_Some in Hr, Hf.
  rewrite (ok_cells _ _ Hg) in Hr. lia.
Qed.
(** A half-face of [c] with face [f]: [c] is one of the cells of [f]. *)
Lemma half_cells c f i : half g c f i → ∃ a b, face_between g f a b ∧ (a = Z.of_nat c ∨ b = Z.of_nat c).
Proof using Hg.
  intros [H Hf]%half_iff. apply half_row in H as (r & b & t & f' & Hr & _ & _ & -> & Ht & Hf').
  rewrite Hf in Hf'. injection Hf' as <-. eapply (ok_inc _ _ Hg); [done|]. by eapply elem_of_list_lookup_2.
Qed.
Lemma half_exists c f a b : c < u_nc g → face_between g f a b → a = Z.of_nat c ∨ b = Z.of_nat c → ∃ i, half g c f i.
Proof using Hg.
  intros Hc Hf Hab. rewrite <- (ok_cells _ _ Hg) in Hc. destruct (lookup_lt_is_Some_2 cf c) as [r Hr]; [done|].
  assert (Hin : f ∈ r) by (eapply (ok_inc _ _ Hg); eauto). apply elem_of_list_lookup in Hin as [t Ht].
  destruct (holds_rows_unique _ _ _ (ok_rows _ _ Hg)) as [E1 E2].
  destruct (starts_rows 0 [] cf c r eq_refl Hr) as (b0 & Hb & He & _).
  assert (Hh : (c, b0 + t) ∈ halves 0 0 cf).
  { apply halves_elem. exists c, r, b0. apply lookup_lt_Some in Ht. split_and!; try done; lia. }
  pose proof (half_row _ _ Hh) as (r' & b' & t' & f' & Hr' & Hb' & _ & Ei & Ht' & Hf').
  rewrite E1, Hb in Hb'. injection Hb' as <-. assert (t' = t) as -> by lia. rewrite Hr in Hr'. injection Hr' as <-.
  rewrite Ht in Ht'. injection Ht' as <-. exists (b0 + t). apply half_iff. done.
Qed.
Lemma half_unique c f i j : half g c f i → half g c f j → i = j.
Proof using Hg.
  intros [H Hf]%half_iff [H' Hf']%half_iff.
  apply half_row in H as (r & b & t & f1 & Hr & Hb & _ & -> & Ht & Hf1).
  apply half_row in H' as (r' & b' & t' & f2 & Hr' & Hb' & _ & -> & Ht' & Hf2).
  rewrite Hr in Hr'. injection Hr' as <-. rewrite Hb in Hb'. injection Hb' as <-.
  rewrite Hf in Hf1. injection Hf1 as <-. rewrite Hf' in Hf2. injection Hf2 as <-.
  f_equal. eapply NoDup_lookup; [by eapply (ok_nodup _ _ Hg)|done|done].
Qed.
Lemma face_data f : f < u_nf g → ∃ a b, face_between g f a b.
Proof using Hg.
  intros Hf. pose proof (ok_faces _ _ Hg).
  destruct (lookup_lt_is_Some_2 (u_facecells g) (2 * f)) as [a Ea]; [lia|].
  destruct (lookup_lt_is_Some_2 (u_facecells g) (2 * f + 1)) as [b Eb]; [lia|]. exists a, b. done.
Qed.
Lemma half_face_lt c f i : half g c f i → f < u_nf g.
Proof using Hg.
  intros (a & b & [Ha _] & _)%half_cells. apply lookup_lt_Some in Ha. pose proof (ok_faces _ _ Hg). lia.
Qed.

Local Open Scope R_scope.
(** Sum over the half-faces of one face. *)
Lemma rsum_face_two (h : nat * nat → R) f a b i j :
  face_between g f (Z.of_nat a) (Z.of_nat b) → half g a f i → half g b f j →
  rsum (λ ci, if decide (u_cellfaces g !! ci.2 = Some f) then h ci else 0) (halves 0 0 cf) = h (a, i) + h (b, j).
Proof using Hg.
  intros Hf Hi Hj. assert (Hab : a ≠ b).
  { intros ->. pose proof (ok_range _ _ Hg _ _ _ Hf) as (? & _ & ?). lia. }
  apply rsum_two; [apply halves_nodup|congruence|]. intros [c k]. cbn [snd]. rewrite <- half_iff. split.
  - intros Hk. destruct (half_cells _ _ _ Hk) as (a' & b' & [Ha' Hb'] & Hc). destruct Hf as [Ha Hb].
    rewrite Ha in Ha'. injection Ha' as <-. rewrite Hb in Hb'. injection Hb' as <-.
    destruct Hc as [Hc|Hc]; apply Nat2Z.inj in Hc as ->.
    + left. f_equal. by eapply half_unique.
    + right. f_equal. by eapply half_unique.
  - intros [[= -> ->]|[= -> ->]]; done.
Qed.
Lemma rsum_face_one (h : nat * nat → R) f a b c i :
  face_between g f a b → (a = Z.of_nat c ∧ b = -1 ∨ a = -1 ∧ b = Z.of_nat c)%Z → half g c f i →
  rsum (λ ci, if decide (u_cellfaces g !! ci.2 = Some f) then h ci else 0) (halves 0 0 cf) = h (c, i).
Proof using Hg.
  intros Hf Hab Hi. apply rsum_one; [apply halves_nodup|]. intros [c' k]. cbn [snd]. rewrite <- half_iff. split.
  - intros Hk. destruct (half_cells _ _ _ Hk) as (a' & b' & [Ha' Hb'] & Hc). destruct Hf as [Ha Hb].
    rewrite Ha in Ha'. injection Ha' as <-. rewrite Hb in Hb'. injection Hb' as <-.
    assert (c' = c) as -> by lia. f_equal. by eapply half_unique.
  - intros [= -> ->]; done.
Qed.
End half.
