(** Reading a compressed row matrix, and the driving forces of the two-point
    pressure system. *)
From Coq Require Import Reals.
From stdpp Require Import sorting.
From Verif Require Import Base GridModel GridSpec CsrModel CsrSpec TofSpec WellsModel IfsModel.
Local Open Scope R_scope.

(** The coefficient in row [i], column [j]: the sum of all stored values with
    that position (a column may be stored more than once in a row). *)
Definition mat (A : csr) (sa : list R) (i j : nat) : R :=
  match a_ja A, a_ia A !! i, a_ia A !! S i with
  | Some ja, Some b, Some e =>
    rsum (λ p, if decide (ja !! p = Some j) then default 0 (sa !! p) else 0) (seq b (e - b))
  | _, _, _ => 0
  end.
(** [x] solves the system with matrix [sa] and right hand side [b]. *)
Definition solves (A : csr) (sa b x : list R) : Prop :=
  ∀ i, (i < a_m A)%nat → rsum (λ j, mat A sa i j * default 0 (x !! j)) (seq 0 (a_m A)) = default 0 (b !! i).

(** The neighbour of cell [c] over face [f]; -1 for the outside. *)
Definition neighbour (g : ugrid) (c f : nat) : Z :=
  match u_facecells g !! (2 * f)%nat, u_facecells g !! (2 * f + 1)%nat with
  | Some a, Some b => if decide (a = Z.of_nat c) then b else a
  | _, _ => (-1)%Z
  end.

(** The cell of a signed cell number. *)
Definition opt_cell (z : Z) : option nat := if decide (0 <= z)%Z then Some (Z.to_nat z) else None.
(** The pairs of cells at the faces, as [construct_matrix] sees them. *)
Definition face_pairs (g : ugrid) : list (option nat * option nat) :=
  (λ f, (opt_cell (default (-1)%Z (u_facecells g !! (2 * f)%nat)), opt_cell (default (-1)%Z (u_facecells g !! (2 * f + 1)%nat)))) <$> seq 0 (u_nf g).

(** The sparsity pattern of the system for the grid and wells perforating the
    cells [wrows]. *)
Record pattern (g : ugrid) (A : csr) (wrows : list (list nat)) (ja : list nat) (rows : list (list nat)) : Prop := {
  pt_ja : a_ja A = Some ja;
  pt_nnz : a_nnz A = length ja;
  pt_m : a_m A = (u_nc g + length wrows)%nat;
  pt_len : length rows = a_m A;
  pt_rows : holds_rows (a_ia A) ja rows;
  pt_wells : ∀ w r c, wrows !! w = Some r → c ∈ r → (c < u_nc g)%nat;
  pt_coup : ∀ i r, rows !! i = Some r → Sorted le r ∧ ∀ j, j ∈ r ↔ coupled (u_nc g) (face_pairs g) wrows i j }.

(** What a control of a well asks for. *)
Inductive demand := Shut | Pressure (bhp : R) | Rate (q : R) | Unsupported.
(** The demand of the current control.  Only rates of the total reservoir
    volume (all of the distribution one) are supported. *)
Definition demand_of (np : nat) (c : @ctrl R) (d : demand) : Prop :=
  if decide (c_current c < 0)%Z then d = Shut
  else ∃ ty v, let k := Z.to_nat (c_current c) in
    (k < c_num c)%nat ∧ c_type c !! k = Some ty ∧ c_target c !! k = Some v ∧
    (∀ t, (t < np)%nat → is_Some (c_distr c !! (np * k + t)%nat)) ∧
    match ty with
    | BHP => d = Pressure v
    | RESERVOIR_RATE => (d = Rate v ∧ ∀ t, (t < np)%nat → c_distr c !! (np * k + t)%nat = Some 1) ∨
                        (d = Unsupported ∧ ∃ t y, (t < np)%nat ∧ c_distr c !! (np * k + t)%nat = Some y ∧ y ≠ 1)
    | SURFACE_RATE => d = Unsupported
    end.
(** The wells perforate the cells [wrows], and ask for [ds]. *)
Record wells_ok {name_t} (nc : nat) (W : @wells R name_t) (wrows : list (list nat)) (ds : list demand) : Prop := {
  wk_nw : w_nw W = length wrows;
  wk_pos0 : w_connpos W !! 0%nat = Some 0%nat;
  wk_pos : ∀ w r b, wrows !! w = Some r → w_connpos W !! w = Some b → w_connpos W !! S w = Some (b + length r)%nat;
  wk_cells : ∀ w r b t c, wrows !! w = Some r → w_connpos W !! w = Some b → r !! t = Some c →
    w_cells W !! (b + t)%nat = Some (Z.of_nat c) ∧ (c < nc)%nat ∧ is_Some (w_WI W !! (b + t)%nat);
  wk_len : length ds = length wrows;
  wk_ctrl : ∀ w d, ds !! w = Some d → ∃ c, w_ctrls W !! w = Some (Some c) ∧ demand_of (w_np W) c d }.

(** The boundary conditions are the list [l] of type, value and faces; every
    pressure and flux condition is on exterior faces, a flux condition on one
    face only, and no face has two such conditions. *)
Notation bcitem := (bctype * R * list nat)%type.
Definition active (it : bcitem) : list (bctype * R * nat) :=
  match it.1.1 with BC_NOFLOW => [] | _ => (λ f, (it.1.1, it.1.2, f)) <$> it.2 end.
Record bc_ok (g : ugrid) (bc : flowbc) (l : list bcitem) : Prop := {
  bk_n : fb_nbc bc = length l;
  bk_item : ∀ i it, l !! i = Some it → fb_type bc !! i = Some it.1.1 ∧ fb_value bc !! i = Some it.1.2 ∧
    ∃ b, fb_pos bc !! i = Some b ∧ fb_pos bc !! S i = Some (b + length it.2)%nat ∧
      ∀ t f, it.2 !! t = Some f → fb_face bc !! (b + t)%nat = Some (Z.of_nat f);
  bk_flux : ∀ v fs, (BC_FLUX_TOTVOL, v, fs) ∈ l → length fs = 1%nat;
  bk_ext : ∀ ty v f, (ty, v, f) ∈ concat (active <$> l) →
    ∃ c, (c < u_nc g)%nat ∧ (face_between g f (Z.of_nat c) (-1) ∨ face_between g f (-1) (Z.of_nat c));
  bk_nodup : NoDup (snd <$> concat (active <$> l)) }.

(** The driving forces: wells asking for [ds], boundary conditions [l]. *)
Definition forces_ok {name_t} (g : ugrid) (wrows : list (list nat)) (F : option (forces name_t)) (ds : list demand) (l : list bcitem) : Prop :=
  match F with
  | None => ds = [] ∧ l = []
  | Some F =>
    match F_W F with
    | None => ds = []
    | Some W => wells_ok (u_nc g) W wrows ds ∧ ∃ mt wdp, F_totmob F = Some mt ∧ F_wdp F = Some wdp ∧
        length mt = u_nc g ∧ length wdp = length (concat wrows)
    end ∧
    match F_bc F with None => l = [] | Some bc => bc_ok g bc l end ∧
    match F_src F with None => True | Some src => length src = u_nc g end
  end.
(** The source in cell [c]. *)
Definition source {name_t} (F : option (forces name_t)) (c : nat) : R :=
  match F with Some F => match F_src F with Some src => default 0 (src !! c) | None => 0 end | None => 0 end.
(** The flow into cell [c] through perforations. *)
Definition inflow {name_t} (F : option (forces name_t)) (wflux : list R) (c : nat) : R :=
  match F with
  | Some F =>
    match F_W F with
    | Some W => rsum (λ i, if decide (w_cells W !! i = Some (Z.of_nat c)) then default 0 (wflux !! i) else 0) (seq 0 (length wflux))
    | None => 0
    end
  | None => 0
  end.
(** No mobility or well index is negative. *)
Definition nonneg_wells {name_t} (F : option (forces name_t)) : Prop :=
  ∀ F' W mt, F = Some F' → F_W F' = Some W → F_totmob F' = Some mt →
    Forall (Rle 0) mt ∧ Forall (Rle 0) (w_WI W).
(** The system leaves the pressure level free: no well has a pressure, no face
    has a pressure. *)
Definition level_free (ds : list demand) (l : list bcitem) : Prop :=
  (∀ d, d ∈ ds → match d with Pressure _ => False | _ => True end) ∧
  (∀ it, it ∈ l → it.1.1 ≠ BC_PRESSURE).
(** What enters altogether: rates of wells, fluxes over the boundary, sources. *)
Definition total_in {name_t} (g : ugrid) (F : option (forces name_t)) (ds : list demand) (l : list bcitem) : R :=
  rsum (λ d, match d with Rate q => q | _ => 0 end) ds +
  rsum (λ it, match it.1.1 with BC_FLUX_TOTVOL => it.1.2 | _ => 0 end) l +
  rsum (source F) (seq 0 (u_nc g)).

(** ** What the results should say, for pressures [x] *)
(** The fluxes over the faces. *)
Record face_law (g : ugrid) (trans gpress : list R) (l : list bcitem) (x ff : list R) : Prop := {
  fl_len : length ff = u_nf g;
  (** between cells: pressure difference and the gravity terms at the two
      positions of the face in the lists of the cells *)
  fl_int : ∀ f a b pa ea pb eb i j, face_between g f (Z.of_nat a) (Z.of_nat b) →
    u_facepos g !! a = Some pa → u_facepos g !! S a = Some ea → (pa <= i < ea)%nat → u_cellfaces g !! i = Some f →
    u_facepos g !! b = Some pb → u_facepos g !! S b = Some eb → (pb <= j < eb)%nat → u_cellfaces g !! j = Some f →
    ff !! f = Some (default 0 (trans !! f) * (default 0 (x !! a) - default 0 (x !! b) + (default 0 (gpress !! i) - default 0 (gpress !! j))));
  (** pressure conditions and flux conditions; [v] is the flow into the grid *)
  fl_press : ∀ v f c, (BC_PRESSURE, v, f) ∈ concat (active <$> l) → (c < u_nc g)%nat →
    (face_between g f (Z.of_nat c) (-1) → ff !! f = Some (default 0 (trans !! f) * (default 0 (x !! c) - v))) ∧
    (face_between g f (-1) (Z.of_nat c) → ff !! f = Some (default 0 (trans !! f) * (v - default 0 (x !! c))));
  fl_flux : ∀ v f c, (BC_FLUX_TOTVOL, v, f) ∈ concat (active <$> l) → (c < u_nc g)%nat →
    (face_between g f (Z.of_nat c) (-1) → ff !! f = Some (- v)) ∧ (face_between g f (-1) (Z.of_nat c) → ff !! f = Some v);
  (** no flow elsewhere on the boundary *)
  fl_none : ∀ f a b, face_between g f a b → (a < 0)%Z ∨ (b < 0)%Z → f ∉ snd <$> concat (active <$> l) → ff !! f = Some 0 }.
(** The well results: perforations of shut wells carry nothing, those of rate
    wells add to the rate, those of pressure wells flow by the target pressure;
    the pressure of a pressure well with a conducting perforation is its target. *)
Definition well_law {name_t} (g : ugrid) (F : option (forces name_t)) (ds : list demand) (x wp wf : list R) : Prop :=
  ∀ F' W mt wdp w d b e, F = Some F' → F_W F' = Some W → F_totmob F' = Some mt → F_wdp F' = Some wdp →
    ds !! w = Some d → w_connpos W !! w = Some b → w_connpos W !! S w = Some e →
    let trans i c := default 0 (mt !! c) * default 0 (w_WI W !! i) in
    let dp i := default 0 (wdp !! i) in
    match d with
    | Shut => ∀ i, (b <= i < e)%nat → wf !! i = Some 0
    | Rate q => rsum (λ i, default 0 (wf !! i)) (seq b (e - b)) = q ∧ wp !! w = x !! (u_nc g + w)%nat ∧
        ∀ i c, (b <= i < e)%nat → w_cells W !! i = Some (Z.of_nat c) →
          wf !! i = Some (trans i c * (default 0 (wp !! w) + dp i - default 0 (x !! c)))
    | Pressure bhp =>
        (∀ i c, (b <= i < e)%nat → w_cells W !! i = Some (Z.of_nat c) →
          wf !! i = Some (trans i c * (bhp + dp i - default 0 (x !! c)))) ∧
        ((∃ i c, (b <= i < e)%nat ∧ w_cells W !! i = Some (Z.of_nat c) ∧ trans i c ≠ 0) → wp !! w = Some bhp)
    | Unsupported => True
    end.
