(** Which parameter trees can be written and read back. *)
From Coq Require Import Ascii.
From stdpp Require Import strings.
From Verif Require Import Base ParamModel ParamSpec.

(** Names: not empty, no slash, no equals sign, no newline. *)
Definition key_ok (w : str) : Prop := w ≠ [] ∧ "/"%char ∉ w ∧ "="%char ∉ w ∧ "010"%char ∉ w.
(** Values: no equals sign, no newline, no comment. *)
Definition value_ok (v : str) : Prop := "="%char ∉ v ∧ "010"%char ∉ v ∧ find ["/"; "/"]%char v = None.
Definition above (k : str) (m : pmap) : Prop := Forall (λ e, str_lt k (fst e) = true) m.
(** A group at [path]: keys increase, names and values can be written, every
    inner group is nonempty and carries the path it is found at. *)
Inductive good : str → pmap → Prop :=
  | good_nil path : good path []
  | good_cons path k it m : good_entry path k it → above k m → good path m → good path ((k, it) :: m)
with good_entry : str → str → item → Prop :=
  | good_param path k v t : key_ok k → value_ok v → good_entry path k (Param v t)
  | good_group path k m : key_ok k → m ≠ [] → good (path ++ [slash] ++ k) m → good_entry path k (Group (path ++ [slash] ++ k) m).
Scheme good_ind2 := Induction for good Sort Prop with good_entry_ind2 := Induction for good_entry Sort Prop.
(** The same tree with every type forgotten: param files hold no types. *)
Fixpoint erase (it : item) : item :=
  match it with
  | Param v _ => Param v cmdline
  | Group p m => Group p ((fix go (m : pmap) := match m with [] => [] | (k, it) :: m => (k, erase it) :: go m end) m)
  end.
