(** What parameter paths mean, independently of how the code walks them. *)
From Coq Require Import Ascii.
From stdpp Require Import strings.
From Verif Require Import Base ParamModel.

(** The pieces of a name between slashes, and its components: the nonempty ones. *)
Fixpoint words (s : str) : list str :=
  match s with
  | [] => [[]]
  | c :: s => if decide (c = "/"%char) then [] :: words s
              else match words s with [] => [[c]] | w :: ws => (c :: w) :: ws end
  end.
Definition comps (s : str) : list str := filter (λ w, w ≠ []) (words s).
(** A component that can be written in a path. *)
Definition plain (w : str) : Prop := w ≠ [] ∧ "/"%char ∉ w.
(** The name of a path. *)
Fixpoint join (ws : list str) : str :=
  match ws with [] => [] | [w] => w | w :: ws => w ++ "/"%char :: join ws end.
(** Names whose insertion terminates: a component, at most one slash after it. *)
Definition name_ok (s : str) : Prop :=
  ∃ s' a, a ≠ "/"%char ∧ (s = s' ++ [a] ∨ s = s' ++ [a; "/"%char]).
(** The item stored at a path. *)
Fixpoint at_path (m : pmap) (ws : list str) : option item :=
  match ws with
  | [] => None
  | [w] => mfind w m
  | w :: ws => match mfind w m with Some (Group _ m1) => at_path m1 ws | _ => None end
  end.
(** Some proper prefix of the path is a plain parameter. *)
Definition blocked (m : pmap) (ws : list str) : Prop :=
  ∃ p q v t, ws = p ++ q ∧ p ≠ [] ∧ q ≠ [] ∧ at_path m p = Some (Param v t).
