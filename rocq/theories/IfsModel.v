(** Model of the assembly and post-processing in
    opm/core/pressure/tpfa/ifs_tpfa.c.  The sparsity pattern is built by
    [construct_matrix] of CsrModel.

    Doubles are real numbers.  [None] is undefined behaviour, a failed
    assertion or a division by zero.  [a -= v] is written as adding [-v]. *)
From Coq Require Import Reals.
From Verif Require Import Base GridModel LoopModel TableModel AccModel CsrModel WellsModel.
Local Open Scope R_scope.

(** enum FlowBCType, flow_bc.h:29-31. *)
Inductive bctype := BC_NOFLOW | BC_PRESSURE | BC_FLUX_TOTVOL.
(** struct FlowBoundaryConditions, flow_bc.h:39-50, without capacities. *)
Record flowbc := FlowBC { fb_nbc : nat; fb_pos : list nat; fb_type : list bctype; fb_value : list R; fb_face : list Z }.
(** struct ifs_tpfa_forces, ifs_tpfa.h:68-76; [None] is the NULL pointer. *)
Record forces {name_t : Type} := Forces {
  F_src : option (list R); F_bc : option flowbc; F_W : option (@wells R name_t);
  F_totmob : option (list R); F_wdp : option (list R) }.
Arguments forces : clear implicits.
(** The numbers of the linear system: A->sa and b. *)
Record sys := Sys { s_sa : list R; s_b : list R }.

(** vector_zero, sparse_sys.c:194-200. *)
Definition vector_zero (n : nat) (v : list R) : option (list R) := for_loop n 0 (λ i v, upd v i 0) v.

(** mult_csr_matrix, ifs_tpfa.c:17-32: v[i] = 0, then v[i] += sa[j]*u[ja[j]];
    the pointer j runs through all rows. *)
Definition mult_body (sa u : list R) (ja : list nat) (i j : nat) (v : list R) : option (list R) :=
  a ← sa !! j; k ← ja !! j; x ← u !! k; addto v i (a * x).
Definition mult_csr (A : csr) (sa u v : list R) : option (list R) :=
  ja ← a_ja A;
  snd <$> for_loop (a_m A) 0 (λ i s, v ← upd s.2 i 0; csr_step (a_ia A) (mult_body sa u ja) i (s.1, v)) (0%nat, v).

Section ifs.
Context {name_t : Type}.
Variable bsearch : nat → list nat → option nat.
Variable g : ugrid.
Variable A : csr.
Variables trans gpress : list R.

(** csrmatrix_elm_index (sparse_sys.c:150-163). *)
Notation idx i j := (elm_index bsearch i j A).
Definition adda (p : nat) (v : R) (s : sys) : option sys := sa ← addto (s_sa s) p v; Some (Sys sa (s_b s)).
Definition addb (k : nat) (v : R) (s : sys) : option sys := b ← addto (s_b s) k v; Some (Sys (s_sa s) b).

(** compute_grav_term, ifs_tpfa.c:189-212. *)
Definition sgn (a : Z) (c : nat) : R := if decide (a = Z.of_nat c) then 1 else -1.
Definition grav_body (c i : nat) (fgrav : list R) : option (list R) :=
  f ← u_cellfaces g !! i;
  c1 ← u_facecells g !! (2 * f)%nat; c2 ← u_facecells g !! (2 * f + 1)%nat;
  if bool_decide (0 <= c1)%Z && bool_decide (0 <= c2)%Z then
    p ← gpress !! i; addto fgrav f (sgn c1 c * p)
  else Some fgrav.
Definition compute_grav_term (fgrav : list R) : option (list R) :=
  fgrav ← vector_zero (u_nf g) fgrav;
  csr_loop (u_nc g) (u_facepos g) grav_body fgrav.

(** Body of the loop over the faces of a cell, ifs_tpfa.c:599-615; [j1] is the
    position of the diagonal element. *)
Definition face_body (fgrav : list R) (j1 c i : nat) (s : sys) : option sys :=
  f ← u_cellfaces g !! i;
  c1 ← u_facecells g !! (2 * f)%nat; c2 ← u_facecells g !! (2 * f + 1)%nat;
  let other := if decide (c1 = Z.of_nat c) then c2 else c1 in
  t ← trans !! f; fg ← fgrav !! f;
  s ← addb c (- (t * (sgn c1 c * fg))) s;
  if decide (0 <= other)%Z then
    j2 ← idx c (Z.to_nat other);
    s ← adda j1 t s;
    adda j2 (- t) s
  else Some s.
(** The loop over the cells, ifs_tpfa.c:596-616. *)
Definition face_step (fgrav : list R) (c : nat) (s : nat * sys) : option (nat * sys) :=
  j1 ← idx c c;
  csr_step (u_facepos g) (face_body fgrav j1) c s.
Definition assemble_faces (fgrav : list R) (s : sys) : option sys :=
  snd <$> for_loop (u_nc g) 0 (face_step fgrav) (0%nat, s).

(** ** Wells *)
Section wells.
Variable W : @wells R name_t.
Variables mt wdp : list R.
Notation nc := (u_nc g).

(** The loop over the perforations of well [w]: cell, connection
    transmissibility [mt[c]*WI[i]] and the rest of the body. *)
Definition perf_body (body : nat → nat → R → sys → option sys) (i : nat) (s : sys) : option sys :=
  z ← w_cells W !! i; wi ← w_WI W !! i;
  if decide (0 <= z)%Z then m ← mt !! Z.to_nat z; body i (Z.to_nat z) (m * wi) s else None.
Definition perf_loop (w : nat) (body : nat → nat → R → sys → option sys) (s : sys) : option sys :=
  b ← w_connpos W !! w; e ← w_connpos W !! S w;
  for_loop (e - b) b (perf_body body) s.

(** assemble_bhp_well, ifs_tpfa.c:217-251. *)
Definition assemble_bhp_well (w : nat) (bhp : R) (s : sys) : option sys :=
  let wdof := (nc + w)%nat in
  jw ← idx wdof wdof;
  perf_loop w (λ i c t s,
    jc ← idx c c;
    s ← adda jc t s;
    d ← wdp !! i;
    s ← addb c (t * (bhp + d)) s;
    s ← adda jw t s;
    addb wdof (t * bhp) s) s.

(** assemble_rate_well, ifs_tpfa.c:256-298. *)
Definition assemble_rate_well (w : nat) (resv : R) (s : sys) : option sys :=
  let wdof := (nc + w)%nat in
  jww ← idx wdof wdof;
  s ← perf_loop w (λ i c t s,
    jcc ← idx c c; jcw ← idx c wdof; jwc ← idx wdof c;
    s ← adda jcc t s;
    s ← adda jcw (- t) s;
    d ← wdp !! i;
    s ← addb c (t * d) s;
    s ← adda jwc (- t) s;
    s ← adda jww t s;
    addb wdof (- (t * d)) s) s;
  addb wdof resv s.

(** assemble_shut_well, ifs_tpfa.c:303-339. *)
Definition assemble_shut_well (w : nat) (s : sys) : option sys :=
  let wdof := (nc + w)%nat in
  jw ← idx wdof wdof;
  s ← perf_loop w (λ i c t s, adda jw t s) s;
  b ← upd (s_b s) wdof 0; Some (Sys (s_sa s) b).

(** The test of the distribution, ifs_tpfa.c:382-387: [true] if all the
    [np] entries are 1.0. *)
Fixpoint distr_one (distr : list R) (k np : nat) : option bool :=
  match np with
  | 0 => Some true
  | S np => x ← distr !! k; if Req_EM_T x 1 then distr_one distr (S k) np else Some false
  end.
(** Body of the loop over wells, ifs_tpfa.c:362-404.  State: *all_rate, *ok and
    the system. *)
Definition well_body (w : nat) (s : bool * bool * sys) : option (bool * bool * sys) :=
  let '(all_rate, ok, s) := s in
  p ← w_ctrls W !! w; c ← p;
  if decide (c_current c < 0)%Z then s ← assemble_shut_well w s; Some (all_rate, ok, s)
  else
    let k := Z.to_nat (c_current c) in
    if decide (k < c_num c)%nat then
      ty ← c_type c !! k;
      match ty with
      | BHP => bhp ← c_target c !! k; s ← assemble_bhp_well w bhp s; Some (false, ok, s)
      | RESERVOIR_RATE =>
        one ← distr_one (c_distr c) (w_np W * k) (w_np W);
        let ok := if one : bool then ok else false in
        if ok : bool then resv ← c_target c !! k; s ← assemble_rate_well w resv s; Some (all_rate, ok, s)
        else Some (all_rate, ok, s)
      | SURFACE_RATE => Some (all_rate, false, s)
      end
    else None.
(** assemble_well_contrib, ifs_tpfa.c:344-405. *)
Definition assemble_wells (s : sys) : option (bool * bool * sys) :=
  for_loop (w_nw W) 0 well_body (true, true, s).
End wells.

(** ** Boundary conditions *)
(** The cells of the face [fb_face[j]] and the assertion that exactly one of
    them is negative, ifs_tpfa.c:430-434 and others. *)
Definition bc_face (bc : flowbc) (j : nat) : option (nat * Z * Z) :=
  z ← fb_face bc !! j;
  if decide (0 <= z)%Z then
    let f := Z.to_nat z in
    c1 ← u_facecells g !! (2 * f)%nat; c2 ← u_facecells g !! (2 * f + 1)%nat;
    if xorb (bool_decide (c1 < 0)%Z) (bool_decide (c2 < 0)%Z) then Some (f, c1, c2) else None
  else None.
(** ifs_tpfa.c:429-446. *)
Definition bc_press_body (fgrav : list R) (bc : flowbc) (v : R) (j : nat) (s : sys) : option sys :=
  '(f, c1, c2) ← bc_face bc j;
  t ← trans !! f;
  let sg := if decide (0 <= c1)%Z then 1 else -1 in
  let c := Z.to_nat (if decide (0 <= c1)%Z then c1 else c2) in
  ix ← idx c c;
  s ← adda ix t s;
  s ← addb c (t * v) s;
  fg ← fgrav !! f;
  addb c (- (sg * t * fg)) s.
(** ifs_tpfa.c:453-464. *)
Definition bc_flux_body (bc : flowbc) (v : R) (j : nat) (s : sys) : option sys :=
  '(_, c1, c2) ← bc_face bc j;
  addb (Z.to_nat (if decide (0 <= c1)%Z then c1 else c2)) v s.
(** assemble_bc_contrib, ifs_tpfa.c:410-470; state: is_neumann and the system. *)
Definition bc_body (fgrav : list R) (bc : flowbc) (i : nat) (s : bool * sys) : option (bool * sys) :=
  ty ← fb_type bc !! i;
  match ty with
  | BC_PRESSURE =>
    b ← fb_pos bc !! i; e ← fb_pos bc !! S i; v ← fb_value bc !! i;
    s ← for_loop (e - b) b (bc_press_body fgrav bc v) s.2; Some (false, s)
  | BC_FLUX_TOTVOL =>
    b ← fb_pos bc !! i; e ← fb_pos bc !! S i; v ← fb_value bc !! i;
    if decide (e = b + 1)%nat then t ← for_loop (e - b) b (bc_flux_body bc v) s.2; Some (s.1, t)
    else None
  | BC_NOFLOW => Some s
  end.
Definition assemble_bc (fgrav : list R) (bc : flowbc) (s : sys) : option (bool * sys) :=
  for_loop (fb_nbc bc) 0 (bc_body fgrav bc) (true, s).

(** Source terms, ifs_tpfa.c:642-647. *)
Definition src_body (src : list R) (c : nat) (s : sys) : option sys := q ← src !! c; addb c q s.

(** assemble_incompressible, ifs_tpfa.c:575-651.  Returns fgrav, the system,
    *singular and *ok. *)
Definition assemble_incompressible (F : option (forces name_t)) (fgrav : list R) (s : sys) :
    option (list R * sys * bool * bool) :=
  sa ← vector_zero (a_nnz A) (s_sa s);
  b ← vector_zero (a_m A) (s_b s);
  fgrav ← compute_grav_term fgrav;
  s ← assemble_faces fgrav (Sys sa b);
  match F with
  | None => Some (fgrav, s, true, true)
  | Some F =>
    '(rate, ok, s) ←
      match F_W F, F_totmob F, F_wdp F with
      | Some W, Some mt, Some wdp =>
        if decide (a_m A = u_nc g + w_nw W)%nat then assemble_wells W mt wdp s else None
      | _, _, _ => Some (true, true, s)
      end;
    '(neumann, s) ← match F_bc F with Some bc => assemble_bc fgrav bc s | None => Some (true, s) end;
    s ← match F_src F with Some src => for_loop (u_nc g) 0 (src_body src) s | None => Some s end;
    Some (fgrav, s, neumann && rate, ok)
  end.

(** ifs_tpfa_assemble, ifs_tpfa.c:691-707. *)
Definition ifs_assemble (F : option (forces name_t)) (fgrav : list R) (s : sys) :
    option (list R * sys * bool) :=
  '(fgrav, s, singular, ok) ← assemble_incompressible F fgrav s;
  if ok && singular then
    x ← s_sa s !! 0%nat; sa ← upd (s_sa s) 0 (x * 2); Some (fgrav, Sys sa (s_b s), ok)
  else Some (fgrav, s, ok).

(** ifs_tpfa_assemble_comprock, ifs_tpfa.c:712-750. *)
Definition comprock_body (porevol rock_comp pressure : list R) (dt : R) (c : nat) (s : sys) : option sys :=
  j ← idx c c;
  pv ← porevol !! c; rc ← rock_comp !! c;
  d ← rdiv (pv * rc) dt;
  s ← adda j d s;
  p ← pressure !! c; addb c (d * p) s.
Definition ifs_assemble_comprock (F : option (forces name_t)) (porevol rock_comp pressure : list R) (dt : R)
    (fgrav : list R) (s : sys) : option (list R * sys * bool) :=
  '(fgrav, s, singular, ok) ← assemble_incompressible F fgrav s;
  if ok : bool then s ← for_loop (u_nc g) 0 (comprock_body porevol rock_comp pressure dt) s; Some (fgrav, s, ok)
  else Some (fgrav, s, ok).

(** ifs_tpfa_assemble_comprock_increment, ifs_tpfa.c:755-802; [work] is
    pimpl->work.  F is dereferenced without a test (793). *)
Definition increment_body (porevol rock_comp initial : list R) (dt : R) (v : list R) (c : nat) (s : sys) : option sys :=
  j ← idx c c;
  pv ← porevol !! c; pv0 ← initial !! c; rc ← rock_comp !! c;
  dpvdt ← rdiv (pv - pv0) dt;
  d ← rdiv (pv * rc) dt;
  s ← adda j d s;
  x ← v !! c; addb c (- (dpvdt + x)) s.
Definition ifs_assemble_increment (F : option (forces name_t)) (porevol rock_comp prev initial : list R) (dt : R)
    (work fgrav : list R) (s : sys) : option (list R * sys * bool) :=
  '(fgrav, s, singular, ok) ← assemble_incompressible F fgrav s;
  if ok : bool then
    v ← mult_csr A (s_sa s) prev work;
    s ← for_loop (u_nc g) 0 (increment_body porevol rock_comp initial dt v) s;
    F ← F;
    s ← match F_W F with
        | Some W => for_loop (w_nw W) (u_nc g) (λ k s, x ← v !! k; addb k (- x) s) s
        | None => Some s
        end;
    Some (fgrav, s, ok)
  else Some (fgrav, s, ok).

(** ** Pressures and fluxes *)
(** Interior faces, ifs_tpfa.c:830-840. *)
Definition flux_body (fgrav cpress : list R) (f : nat) (fflux : list R) : option (list R) :=
  c1 ← u_facecells g !! (2 * f)%nat; c2 ← u_facecells g !! (2 * f + 1)%nat;
  if bool_decide (0 <= c1)%Z && bool_decide (0 <= c2)%Z then
    p1 ← cpress !! Z.to_nat c1; p2 ← cpress !! Z.to_nat c2; fg ← fgrav !! f; t ← trans !! f;
    upd fflux f (t * (p1 - p2 + fg))
  else upd fflux f 0.
(** boundary_fluxes, ifs_tpfa.c:475-526. *)
Definition bflux_press_body (fgrav cpress : list R) (bc : flowbc) (v : R) (j : nat) (fflux : list R) : option (list R) :=
  '(f, c1, c2) ← bc_face bc j;
  dh ← (if decide (c1 < 0)%Z then p ← cpress !! Z.to_nat c2; Some (v - p)
        else p ← cpress !! Z.to_nat c1; Some (p - v));
  t ← trans !! f; fg ← fgrav !! f;
  upd fflux f (t * (dh + fg)).
Definition bflux_flux_body (bc : flowbc) (v : R) (j : nat) (fflux : list R) : option (list R) :=
  '(f, c1, c2) ← bc_face bc j;
  upd fflux f ((if decide (c1 < 0)%Z then 1 else -1) * v).
Definition bflux_body (fgrav cpress : list R) (bc : flowbc) (i : nat) (fflux : list R) : option (list R) :=
  ty ← fb_type bc !! i;
  match ty with
  | BC_PRESSURE =>
    b ← fb_pos bc !! i; e ← fb_pos bc !! S i; v ← fb_value bc !! i;
    for_loop (e - b) b (bflux_press_body fgrav cpress bc v) fflux
  | BC_FLUX_TOTVOL =>
    b ← fb_pos bc !! i; e ← fb_pos bc !! S i; v ← fb_value bc !! i;
    if decide (e = b + 1)%nat then for_loop (e - b) b (bflux_flux_body bc v) fflux else None
  | BC_NOFLOW => Some fflux
  end.
(** well_solution, ifs_tpfa.c:531-570.  [wpress], [wflux]: the arrays
    well_press, well_flux, [None] for NULL; [x] is the solution vector. *)
Definition wpress_body (W : @wells R name_t) (x : list R) (w : nat) (wpress : list R) : option (list R) :=
  p ← w_ctrls W !! w; c ← p;
  if decide (0 <= c_current c)%Z then v ← x !! (u_nc g + w)%nat; upd wpress w v else Some wpress.
Definition wflux_perf (W : @wells R name_t) (mt wdp cpress : list R) (bhp : R) (shut : bool) (w i : nat) (wflux : list R) :
    option (list R) :=
  z ← w_cells W !! i;
  if decide (0 <= z)%Z then
    m ← mt !! Z.to_nat z; wi ← w_WI W !! i; d ← wdp !! i; p ← cpress !! Z.to_nat z;
    upd wflux i (if shut then 0 else m * wi * (bhp + d - p))
  else None.
Definition wflux_step (W : @wells R name_t) (mt wdp cpress x : list R) (w : nat) (s : nat * list R) : option (nat * list R) :=
  bhp ← x !! (u_nc g + w)%nat;
  p ← w_ctrls W !! w; c ← p;
  csr_step (w_connpos W) (wflux_perf W mt wdp cpress bhp (bool_decide (c_current c < 0)%Z)) w s.
Definition well_solution (W : @wells R name_t) (mt wdp : option (list R)) (cpress x : list R)
    (wpress wflux : option (list R)) : option (option (list R) * option (list R)) :=
  wpress ← match wpress with
           | Some wp => Some <$> for_loop (w_nw W) 0 (wpress_body W x) wp
           | None => Some None
           end;
  wflux ← match wflux with
          | Some wf =>
            mt ← mt; wdp ← wdp;
            (λ s, Some s.2) <$> for_loop (w_nw W) 0 (wflux_step W mt wdp cpress x) (0%nat, wf)
          | None => Some None
          end;
  Some (wpress, wflux).
(** ifs_tpfa_press_flux, ifs_tpfa.c:807-850.  Returns cell_press, face_flux,
    well_press and well_flux.  When W is given without totmob or wdp the null
    pointers are only dereferenced if there is a perforation; modelled as
    undefined. *)
Definition press_flux (F : option (forces name_t)) (fgrav x cpress fflux : list R) (wpress wflux : option (list R)) :
    option (list R * list R * option (list R) * option (list R)) :=
  xs ← slice x 0 (u_nc g);
  cpress ← memcpy cpress 0 xs;
  fflux ← for_loop (u_nf g) 0 (flux_body fgrav cpress) fflux;
  match F with
  | None => Some (cpress, fflux, wpress, wflux)
  | Some F =>
    fflux ← match F_bc F with
            | Some bc => for_loop (fb_nbc bc) 0 (bflux_body fgrav cpress bc) fflux
            | None => Some fflux
            end;
    '(wpress, wflux) ← match F_W F with
                       | Some W => well_solution W (F_totmob F) (F_wdp F) cpress x wpress wflux
                       | None => Some (wpress, wflux)
                       end;
    Some (cpress, fflux, wpress, wflux)
  end.
End ifs.
