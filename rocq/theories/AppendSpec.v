(** What it means for the tables to hold given records. *)
From Verif Require Import Base AppendModel.

(** The array behind a pointer, empty for NULL. *)
Definition contents {A} (b : buf A) : list A := match b with Live l => l | _ => [] end.
Definition sound {A} (b : buf A) : Prop := b ≠ Freed.

Section spec.
Context {V T : Type}.
(** A boundary condition: type, value, faces. *)
Record bc := Bc { bc_type : T; bc_value : V; bc_faces : list Z }.
(** The structure holds exactly these conditions in order. *)
Definition holds_bcs (s : fbc V T) (bcs : list bc) : Prop :=
  f_nbc s = length bcs ∧
  contents (f_pos s) !! 0 = Some 0 ∧
  ∀ i b, bcs !! i = Some b →
    contents (f_type s) !! i = Some (bc_type b) ∧ contents (f_value s) !! i = Some (bc_value b) ∧
    ∃ p, contents (f_pos s) !! i = Some p ∧ contents (f_pos s) !! S i = Some (p + length (bc_faces b)) ∧
         slice (contents (f_face s)) p (length (bc_faces b)) = Some (bc_faces b).
(** A source term of a transport problem. *)
Record term := Term { t_cell : Z; t_press : V; t_flux : V; t_sat : list V; t_surf : list V }.
Definition holds_terms (s : @tsrc V) (ts : list term) : Prop :=
  s_nsrc s = length ts ∧
  ∀ i t, ts !! i = Some t →
    contents (s_cell s) !! i = Some (t_cell t) ∧ contents (s_press s) !! i = Some (t_press t) ∧
    contents (s_flux s) !! i = Some (t_flux t) ∧
    slice (contents (s_sat s)) (i * s_np s) (s_np s) = Some (t_sat t) ∧
    slice (contents (s_surf s)) (i * s_np s) (s_np s) = Some (t_surf t).
(** A compressible source term. *)
Record cterm := CTerm { ct_cell : Z; ct_flux : V; ct_sat : list V }.
Definition holds_cterms (s : @csrc V) (ts : list cterm) : Prop :=
  q_nsrc s = length ts ∧
  ∀ i t, ts !! i = Some t →
    contents (q_cell s) !! i = Some (ct_cell t) ∧ contents (q_flux s) !! i = Some (ct_flux t) ∧
    slice (contents (q_sat s)) (i * q_np s) (q_np s) = Some (ct_sat t).
End spec.
Arguments bc : clear implicits.
