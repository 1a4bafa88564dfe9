(** The format of a grid file. *)
From Verif Require Import Base.
From Verif Require UniqModel.

Section format.
Context {S D : Type}.
Variables (scan_ulong : S → option (nat * S)) (scan_int : S → option (Z * S)) (scan_double : S → option (D * S)).
(** The next [n] values. *)
Fixpoint values {A} (scan : S → option (A * S)) (n : nat) (s : S) : option (list A * S) :=
  match n with
  | 0 => Some ([], s)
  | Datatypes.S n => match scan s with Some (v, s) => match values scan n s with Some (l, s) => Some (v :: l, s) | None => None end | None => None end
  end.

(** The numbers at the start. *)
Record head := Head { h_dim : nat; h_nc : nat; h_nf : nat; h_nn : nat; h_nfn : nat; h_ncf : nat; h_tag : Z; h_map : Z }.
Definition has_head (s : S) (h : head) (s' : S) : Prop := ∃ s1,
  values scan_ulong 6 s = Some ([h_dim h; h_nc h; h_nf h; h_nn h; h_nfn h; h_ncf h], s1) ∧
  values scan_int 2 s1 = Some ([h_tag h; h_map h], s').
(** Up to the positions of the nodes of faces. *)
Record part1 := Part1 { d_cart : list Z; d_coords : list D; d_fnpos : list Z }.
Definition has_part1 (h : head) (s : S) (d : part1) (s' : S) : Prop := ∃ s1 s2,
  values scan_int (h_dim h) s = Some (d_cart d, s1) ∧ values scan_double (h_dim h * h_nn h) s1 = Some (d_coords d, s2) ∧ values scan_int (h_nf h + 1) s2 = Some (d_fnpos d, s').
(** The faces, [m] nodes in all, up to the positions of the faces of cells. *)
Record part2 := Part2 { d_fnodes : list Z; d_fcells : list Z; d_fareas : list D; d_fcent : list D; d_fnorm : list D; d_cfpos : list Z }.
Definition has_part2 (h : head) (m : nat) (s : S) (d : part2) (s' : S) : Prop := ∃ s1 s2 s3 s4 s5,
  values scan_int m s = Some (d_fnodes d, s1) ∧ values scan_int (2 * h_nf h) s1 = Some (d_fcells d, s2) ∧ values scan_double (h_nf h) s2 = Some (d_fareas d, s3) ∧
  values scan_double (h_dim h * h_nf h) s3 = Some (d_fcent d, s4) ∧ values scan_double (h_dim h * h_nf h) s4 = Some (d_fnorm d, s5) ∧ values scan_int (h_nc h + 1) s5 = Some (d_cfpos d, s').
(** The cells, [m] faces in all; faces and tags alternate if there are tags. *)
Record part3 := Part3 { d_cfaces : list Z; d_ctag : option (list Z); d_gcell : option (list Z); d_cvol : list D; d_ccent : list D }.
Definition interleave (l t : list Z) : list Z := concat (zip_with (λ a b, [a; b]) l t).
Definition has_part3 (h : head) (m : nat) (s : S) (d : part3) : Prop := ∃ s1 s2 s3 s4,
  match d_ctag d with
  | None => h_tag h = 0%Z ∧ values scan_int m s = Some (d_cfaces d, s1)
  | Some t => h_tag h ≠ 0%Z ∧ length (d_cfaces d) = m ∧ length t = m ∧ values scan_int (2 * m) s = Some (interleave (d_cfaces d) t, s1)
  end ∧
  match d_gcell d with None => h_map h = 0%Z ∧ s2 = s1 | Some g => h_map h ≠ 0%Z ∧ values scan_int (h_nc h) s1 = Some (g, s2) end ∧
  values scan_double (h_nc h) s2 = Some (d_cvol d, s3) ∧ values scan_double (h_dim h * h_nc h) s3 = Some (d_ccent d, s4).
(** A complete file. *)
Definition complete (s : S) (h : head) (d1 : part1) (d2 : part2) (d3 : part3) : Prop := ∃ s1 s2 s3 m1 m2,
  has_head s h s1 ∧ has_part1 h s1 d1 s2 ∧ last (d_fnpos d1) = Some (Z.of_nat m1) ∧ has_part2 h m1 s2 d2 s3 ∧ last (d_cfpos d2) = Some (Z.of_nat m2) ∧ has_part3 h m2 s3 d3.

(** As far as the file can be read, its dimension is at most 3, the numbers are
    ints, and the positions end within the announced numbers. *)
Definition consistent (s : S) : Prop :=
  (∀ h s1, has_head s h s1 → h_dim h ≤ 3 ∧ (Z.of_nat (h_nc h) ≤ UniqModel.int_max ∧ Z.of_nat (h_nf h) ≤ UniqModel.int_max ∧ Z.of_nat (h_nn h) ≤ UniqModel.int_max)%Z) ∧
  (∀ h s1 d1 s2, has_head s h s1 → has_part1 h s1 d1 s2 → ∃ m1, last (d_fnpos d1) = Some (Z.of_nat m1) ∧ m1 ≤ h_nfn h) ∧
  (∀ h s1 d1 s2 m1 d2 s3, has_head s h s1 → has_part1 h s1 d1 s2 → last (d_fnpos d1) = Some (Z.of_nat m1) → has_part2 h m1 s2 d2 s3 → ∃ m2, last (d_cfpos d2) = Some (Z.of_nat m2) ∧ m2 ≤ h_ncf h).
End format.
