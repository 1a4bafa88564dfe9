(** Phase usage (C46). *)
From Verif Require Import Base PhaseModel.

(** The keyword of a phase, and the phases in their order. *)
Definition keyword_of (p : phase) : keyword := match p with Aqua => WATER | Liquid => OIL | Vapour => GAS end.
Definition phases : list phase := [Aqua; Liquid; Vapour].
Definition before (p q : phase) : bool :=
  match p, q with Aqua, Liquid | Aqua, Vapour | Liquid, Vapour => true | _, _ => false end.

(** ** C46: the usage exists exactly for decks with oil and another phase; then
    the flags tell the phases of the deck, and the position of every phase is
    the number of active phases before it; so the active phases have the
    positions 0 to n-1, one each. *)
Theorem C46_phase_usage (has : keyword → bool) (junk_used junk_pos : list nat) :
  length junk_used = 3 → length junk_pos = 3 →
  (is_Some (phase_usage_from_deck junk_used junk_pos has) ↔ has OIL = true ∧ (has WATER = true ∨ has GAS = true)) ∧
  ∀ pu, phase_usage_from_deck junk_used junk_pos has = Some pu →
    let active p := has (keyword_of p) = true in
    pu_num pu = length (filter active phases) ∧
    length (pu_used pu) = 3 ∧ length (pu_pos pu) = 3 ∧
    (∀ p, pu_used pu !! phase_index p = Some (if has (keyword_of p) then 1 else 0)) ∧
    (∀ p, pu_pos pu !! phase_index p = Some (length (filter (λ q, active q ∧ before q p = true) phases))) ∧
    (∀ k, k < pu_num pu → ∃ p, active p ∧ pu_pos pu !! phase_index p = Some k ∧
       ∀ q, active q → pu_pos pu !! phase_index q = Some k → q = p).
Proof.
  intros Hu Hp. destruct junk_used as [|u0 [|u1 [|u2 [|]]]]; try done. destruct junk_pos as [|p0 [|p1 [|p2 [|]]]]; try done.
  unfold phase_usage_from_deck, phases, keyword_of, before.
  destruct (has WATER) eqn:EW, (has OIL) eqn:EO, (has GAS) eqn:EG; vm_compute; split.
  all: try (split; [intros [? H]; try discriminate H; naive_solver|naive_solver]).
  all: intros pu [= <-]; cbn; rewrite ?EW, ?EO, ?EG.
  all: split_and!; try done.
  all: try (intros p; destruct p; cbn; rewrite ?EW, ?EO, ?EG; done).
  all: intros [|[|[|k]]] Hk; try lia.
  all: first [exists Aqua; split_and!; [assumption|reflexivity|intros []; cbn; congruence]
             |exists Liquid; split_and!; [assumption|reflexivity|intros []; cbn; congruence]
             |exists Vapour; split_and!; [assumption|reflexivity|intros []; cbn; congruence]].
Qed.
Print Assumptions C46_phase_usage.

(** An oil-gas deck. *)
Example C46_oil_gas : phase_usage_from_deck [7; 7; 7] [9; 9; 9] (λ k, match k with WATER => false | _ => true end) =
  Some (PhaseUsage 2 [0; 1; 1] [0; 0; 1]).
Proof. done. Qed.
(** Position 0 of an inactive phase is the position of another one: positions
    alone do not tell the phases apart. *)
Theorem C46_inactive_position_refuted : ∃ has pu p q, phase_usage_from_deck [0; 0; 0] [0; 0; 0] has = Some pu ∧
  p ≠ q ∧ pu_pos pu !! phase_index p = pu_pos pu !! phase_index q.
Proof. by exists (λ k, match k with WATER => false | _ => true end), (PhaseUsage 2 [0; 1; 1] [0; 0; 1]), Aqua, Liquid. Qed.
Print Assumptions C46_inactive_position_refuted.
