(** Model of opm/core/props/BlackoilPhases.hpp and phaseUsageFromDeck.hpp. *)
From Verif Require Import Base.

(** BlackoilPhases, BlackoilPhases.hpp:27-34. *)
Definition max_num_phases : nat := 3.
Inductive phase := Aqua | Liquid | Vapour.
Definition phase_index (p : phase) : nat := match p with Aqua => 0 | Liquid => 1 | Vapour => 2 end.

(** PhaseUsage, BlackoilPhases.hpp:36-41. *)
Record phase_usage := PhaseUsage { pu_num : nat; pu_used : list nat; pu_pos : list nat }.

(** The keywords looked for. *)
Inductive keyword := WATER | OIL | GAS.

(** The loop over the phases, phaseUsageFromDeck.hpp:50-53. *)
Fixpoint number_phases (n i : nat) (used pos : list nat) (num : nat) : option (list nat * nat) :=
  match n with
  | 0 => Some (pos, num)
  | S n =>
      pos ← upd pos i num;
      u ← used !! i;
      number_phases n (i + 1) used pos (num + u)
  end.

(** phaseUsageFromDeck, phaseUsageFromDeck.hpp:33-68.  [hasField] is the deck;
    [junk] is the content of the uninitialised arrays.  An exception is [None]. *)
Definition phase_usage_from_deck (junk_used junk_pos : list nat) (hasField : keyword → bool) : option phase_usage :=
  let used := replicate max_num_phases 0 ++ drop max_num_phases junk_used in
  used ← (if hasField WATER then upd used (phase_index Aqua) 1 else Some used);
  used ← (if hasField OIL then upd used (phase_index Liquid) 1 else Some used);
  used ← (if hasField GAS then upd used (phase_index Vapour) 1 else Some used);
  '(pos, num) ← number_phases max_num_phases 0 used junk_pos 0;
  if decide (num < 2 ∨ 3 < num) then None else
  l ← used !! phase_index Liquid;
  if decide (l = 0) then None else Some (PhaseUsage num used pos).
