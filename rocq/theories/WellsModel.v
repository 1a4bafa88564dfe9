(** Model of opm/core/wells/wells.c and opm/core/wells.h.

    Simplifications valid for the whole file:
    - [int] fields that the code keeps nonnegative are [nat]; [current] is [Z];
    - [double] values are only copied, so they are an abstract type [V] with
      the two constants the code writes, [vzero] (0.0) and [vminus1] (-1.0);
    - [char *] names are abstract values of type [name_t];
    - the content of freshly (re)allocated memory is an arbitrary record [J];
    - capacities stored in [struct WellMgmt]/[WellControlMgmt] are fields of the
      records. *)
From Verif Require Import Base.

(** wells.h:32-35 *)
Inductive wtype := INJECTOR | PRODUCER.
Global Instance wtype_eq_dec : EqDecision wtype. Proof. solve_decision. Defined.
(** wells.h:42-46 *)
Inductive ctype := BHP | RESERVOIR_RATE | SURFACE_RATE.
Global Instance ctype_eq_dec : EqDecision ctype. Proof. solve_decision. Defined.

Section wells.
Context {V name_t : Type}.

(** struct WellControls, wells.h:75-108, with WellControlMgmt::cpty
    (wells.c:44-46). *)
Record ctrl := Ctrl {
  c_num : nat; c_type : list ctype; c_target : list V; c_distr : list V;
  c_current : Z; c_cpty : nat }.

(** struct Wells, wells.h:114-166, with WellMgmt (wells.c:48-51).
    [w_ctrls] holds pointers: [None] is the NULL pointer. *)
Record wells := Wells {
  w_nw : nat; w_np : nat;
  w_type : list wtype; w_depth : list V; w_comp_frac : list V;
  w_connpos : list nat; w_cells : list Z; w_WI : list V;
  w_ctrls : list (option ctrl); w_name : list (option name_t);
  w_well_cpty : nat; w_perf_cpty : nat }.

(** Unknown content of uninitialised memory, one value per array type. *)
Record junk := Junk {
  j_wt : wtype; j_ct : ctype; j_V : V; j_nat : nat; j_Z : Z;
  j_ctrl : option ctrl; j_name : option name_t }.

Variables vzero vminus1 : V.
Variable J : junk.

(** well_controls_create, wells.c:115-141 (two mallocs: the struct and its
    management data). *)
Definition fresh_ctrl : ctrl := Ctrl 0 [] [] [] (-1) 0.
Definition well_controls_create (o : list bool) : option ctrl * list bool :=
  let '(b1, o) := next_alloc o in
  if b1 then
    let '(b2, o) := next_alloc o in
    if b2 then (Some fresh_ctrl, o) else (None, o)
  else (None, o).

(** well_controls_reserve, wells.c:144-178.  The two initialisation loops are
    written as one fill per array. *)
Definition well_controls_reserve (nctrl np : nat) (c : ctrl) (o : list bool)
    : option (bool * ctrl * list bool) :=
  let '(b1, o) := next_alloc o in
  let '(b2, o) := next_alloc o in
  let '(b3, o) := next_alloc o in
  let ty := if b1 then realloc_arr (j_ct J) nctrl (c_type c) else c_type c in
  let tg := if b2 then realloc_arr (j_V J) nctrl (c_target c) else c_target c in
  let ds := if b3 then realloc_arr (j_V J) (nctrl * np) (c_distr c) else c_distr c in
  if b1 && b2 && b3 then
    ty' ← memcpy ty (c_cpty c) (replicate (nctrl - c_cpty c) BHP);
    tg' ← memcpy tg (c_cpty c) (replicate (nctrl - c_cpty c) vminus1);
    ds' ← memcpy ds (c_cpty c * np) (replicate (nctrl * np - c_cpty c * np) vzero);
    Some (true, Ctrl (c_num c) ty' tg' ds' (c_current c) nctrl, o)
  else Some (false, Ctrl (c_num c) ty tg ds (c_current c) (c_cpty c), o).

(** wells_allocate, wells.c:181-211 (six reallocs, all attempted). *)
Definition wells_allocate (nwells : nat) (W : wells) (o : list bool)
    : bool * wells * list bool :=
  let '(b1, o) := next_alloc o in
  let '(b2, o) := next_alloc o in
  let '(b3, o) := next_alloc o in
  let '(b4, o) := next_alloc o in
  let '(b5, o) := next_alloc o in
  let '(b6, o) := next_alloc o in
  (b1 && b2 && b3 && b4 && b5 && b6,
   Wells (w_nw W) (w_np W)
     (if b1 then realloc_arr (j_wt J) nwells (w_type W) else w_type W)
     (if b2 then realloc_arr (j_V J) nwells (w_depth W) else w_depth W)
     (if b3 then realloc_arr (j_V J) (w_np W * nwells) (w_comp_frac W) else w_comp_frac W)
     (if b6 then realloc_arr (j_nat J) (S nwells) (w_connpos W) else w_connpos W)
     (w_cells W) (w_WI W)
     (if b4 then realloc_arr (j_ctrl J) nwells (w_ctrls W) else w_ctrls W)
     (if b5 then realloc_arr (j_name J) nwells (w_name W) else w_name W)
     (w_well_cpty W) (w_perf_cpty W),
   o).

(** perfs_allocate, wells.c:214-230. *)
Definition perfs_allocate (nperf : nat) (W : wells) (o : list bool)
    : bool * wells * list bool :=
  let '(b1, o) := next_alloc o in
  let '(b2, o) := next_alloc o in
  (b1 && b2,
   Wells (w_nw W) (w_np W) (w_type W) (w_depth W) (w_comp_frac W) (w_connpos W)
     (if b1 then realloc_arr (j_Z J) nperf (w_cells W) else w_cells W)
     (if b2 then realloc_arr (j_V J) nperf (w_WI W) else w_WI W)
     (w_ctrls W) (w_name W) (w_well_cpty W) (w_perf_cpty W),
   o).

(** The recurrence [well_connpos[w+1] = well_connpos[w]], wells.c:253. *)
Fixpoint init_connpos (n w : nat) (cp : list nat) : option (list nat) :=
  match n with
  | 0 => Some cp
  | S n' => x ← cp !! w; cp' ← upd cp (S w) x; init_connpos n' (S w) cp'
  end.

(** Second loop of initialise_new_wells with the NULL fill after a failure,
    wells.c:256-266. *)
Fixpoint init_ctrls (n w : nat) (cs : list (option ctrl)) (o : list bool)
    : option (bool * list (option ctrl) * list bool) :=
  match n with
  | 0 => Some (true, cs, o)
  | S n' =>
      let '(c, o) := well_controls_create o in
      cs' ← upd cs w c;
      match c with
      | Some _ => init_ctrls n' (S w) cs' o
      | None => cs'' ← memcpy cs' (S w) (replicate n' None); Some (false, cs'', o)
      end
  end.

(** initialise_new_wells, wells.c:233-269; first loop written as one fill per
    array (the iterations are independent except for well_connpos). *)
Definition initialise_new_wells (nwells : nat) (W : wells) (o : list bool)
    : option (bool * wells * list bool) :=
  let w0 := w_well_cpty W in
  let n := nwells - w0 in
  ty ← memcpy (w_type W) w0 (replicate n PRODUCER);
  dp ← memcpy (w_depth W) w0 (replicate n vminus1);
  nm ← memcpy (w_name W) w0 (replicate n None);
  cf ← memcpy (w_comp_frac W) (w_np W * w0) (replicate (w_np W * n) vzero);
  cp ← init_connpos n w0 (w_connpos W);
  r ← init_ctrls n w0 (w_ctrls W) o;
  let '(ok, cs, o) := r in
  Some (ok, Wells (w_nw W) (w_np W) ty dp cf cp (w_cells W) (w_WI W) cs nm
              (w_well_cpty W) (w_perf_cpty W), o).

(** initialise_new_perfs, wells.c:272-287. *)
Definition initialise_new_perfs (nperf : nat) (W : wells) : option wells :=
  let n := nperf - w_perf_cpty W in
  cl ← memcpy (w_cells W) (w_perf_cpty W) (replicate n (-1)%Z);
  wi ← memcpy (w_WI W) (w_perf_cpty W) (replicate n vzero);
  Some (Wells (w_nw W) (w_np W) (w_type W) (w_depth W) (w_comp_frac W) (w_connpos W)
          cl wi (w_ctrls W) (w_name W) (w_well_cpty W) (w_perf_cpty W)).

Definition set_well_cpty (n : nat) (W : wells) : wells :=
  Wells (w_nw W) (w_np W) (w_type W) (w_depth W) (w_comp_frac W) (w_connpos W)
    (w_cells W) (w_WI W) (w_ctrls W) (w_name W) n (w_perf_cpty W).
Definition set_perf_cpty (n : nat) (W : wells) : wells :=
  Wells (w_nw W) (w_np W) (w_type W) (w_depth W) (w_comp_frac W) (w_connpos W)
    (w_cells W) (w_WI W) (w_ctrls W) (w_name W) (w_well_cpty W) n.

(** First half of wells_reserve: the wells part, wells.c:306-316. *)
Definition reserve_wells_part (nwells : nat) (W : wells) (o : list bool)
    : option (bool * wells * list bool) :=
  if decide (w_well_cpty W < nwells) then
    let '(ok, W1, o) := wells_allocate nwells W o in
    if (ok : bool) then
      r ← initialise_new_wells nwells W1 o;
      let '(ok, W2, o) := r in
      if (ok : bool) then Some (true, set_well_cpty nwells W2, o)
      else Some (false, W2, o)
    else Some (false, W1, o)
  else Some (true, W, o).

(** Second half: the perforations part, wells.c:318-325. *)
Definition reserve_perfs_part (nperf : nat) (W : wells) (o : list bool)
    : option (bool * wells * list bool) :=
  if decide (w_perf_cpty W < nperf) then
    let '(ok, W1, o) := perfs_allocate nperf W o in
    if (ok : bool) then
      W2 ← initialise_new_perfs nperf W1;
      Some (true, set_perf_cpty nperf W2, o)
    else Some (false, W1, o)
  else Some (true, W, o).

(** wells_reserve, wells.c:290-328, with its two asserts. *)
Definition wells_reserve (nwells nperf : nat) (W : wells) (o : list bool)
    : option (bool * wells * list bool) :=
  if decide (w_well_cpty W ≤ nwells ∧ w_perf_cpty W ≤ nperf) then
    r ← reserve_wells_part nwells W o;
    let '(ok, W1, o) := r in
    if (ok : bool) then reserve_perfs_part nperf W1 o else Some (false, W1, o)
  else None.

(** destroy_wells, wells.c:401-434, as far as it reads memory: it follows
    ctrls[w] and name[w] for all w < well_cpty.  [None] if one of these reads is
    out of bounds. *)
Definition destroy_wells (W : wells) : option unit :=
  if decide (w_well_cpty W ≤ length (w_ctrls W) ∧ w_well_cpty W ≤ length (w_name W))
  then Some () else None.

(** create_wells, wells.c:355-398.  When the management structure could not be
    allocated, W->data is NULL and destroy_wells reads W->data->well_cpty
    (wells.c:411-413): undefined behaviour. *)
Definition create_wells (np nwells nperf : nat) (o : list bool)
    : option (option wells * list bool) :=
  let '(b1, o) := next_alloc o in
  if b1 then
    let '(b2, o) := next_alloc o in (* well_connpos *)
    let '(b3, o) := next_alloc o in (* create_well_mgmt *)
    if b3 then
      if b2 then
        let W := Wells 0 np [] [] [] [0] [] [] [] [] 0 0 in
        if decide (0 < nwells ∨ 0 < nperf) then
          r ← wells_reserve nwells nperf W o;
          let '(ok, W, o) := r in
          if (ok : bool) then Some (Some W, o)
          else _ ← destroy_wells W; Some (None, o)
        else Some (Some W, o)
      else Some (None, o)
    else None
  else Some (None, o).

(** alloc_size, wells.c:437-451. *)
Definition alloc_size (n a cpty : nat) : nat :=
  if decide (cpty < n + a) then
    let c2 := cpty * 2 in if decide (c2 < n + a) then n + a else c2
  else cpty.

(** add_well, wells.c:454-520.  The number of perforations is the length of
    [cells] (the C function takes it separately); a [WI] or [comp_frac] array of
    any other length than expected counts as undefined behaviour. *)
Definition add_well (ty : wtype) (depth : V) (cf : option (list V)) (cells : list Z)
    (wi : option (list V)) (nm : option name_t) (W : wells) (o : list bool)
    : option (bool * wells * list bool) :=
  let nw := w_nw W in
  let nperf := length cells in
  nperf_tot ← w_connpos W !! nw;
  r ← (if decide (nw < w_well_cpty W ∧ nperf_tot + nperf ≤ w_perf_cpty W)
       then Some (true, W, o)
       else wells_reserve (alloc_size nw 1 (w_well_cpty W))
              (alloc_size nperf_tot nperf (w_perf_cpty W)) W o);
  let '(ok, W, o) := r in
  off ← w_connpos W !! nw;
  if (ok : bool) then
    cl ← memcpy (w_cells W) off cells;
    wis ← (match wi with
           | Some l => if decide (length l = nperf) then memcpy (w_WI W) off l else None
           | None => Some (w_WI W)
           end);
    tys ← upd (w_type W) nw ty;
    dps ← upd (w_depth W) nw depth;
    rn ← (match nm with
          | Some s => let '(b, o) := next_alloc o in
                      l ← upd (w_name W) nw (if (b : bool) then Some s else None); Some (l, o)
          | None => Some (w_name W, o)
          end);
    let '(nms, o) := rn in
    cfs ← (match cf with
           | Some l => if decide (length l = w_np W)
                       then memcpy (w_comp_frac W) (w_np W * nw) l else None
           | None => Some (w_comp_frac W)
           end);
    cps ← upd (w_connpos W) (S nw) (off + nperf);
    Some (true, Wells (S nw) (w_np W) tys dps cfs cps cl wis (w_ctrls W) nms
                  (w_well_cpty W) (w_perf_cpty W), o)
  else Some (false, W, o).

Definition set_ctrl (W : wells) (cs : list (option ctrl)) : wells :=
  Wells (w_nw W) (w_np W) (w_type W) (w_depth W) (w_comp_frac W) (w_connpos W)
    (w_cells W) (w_WI W) cs (w_name W) (w_well_cpty W) (w_perf_cpty W).

(** append_well_controls, wells.c:523-565, on the control structure. *)
Definition ctrl_append (ty : ctype) (target : V) (distr : option (list V)) (np : nat)
    (c : ctrl) (o : list bool) : option (bool * ctrl * list bool) :=
  r ← (if decide (c_num c < c_cpty c) then Some (true, c, o)
       else well_controls_reserve (alloc_size (c_num c) 1 (c_cpty c)) np c o);
  let '(ok, c, o) := r in
  if (ok : bool) then
    tys ← upd (c_type c) (c_num c) ty;
    tgs ← upd (c_target c) (c_num c) target;
    dss ← (match distr with
           | Some l => if decide (length l = np)
                       then memcpy (c_distr c) (c_num c * np) l else None
           | None => Some (c_distr c)
           end);
    Some (true, Ctrl (S (c_num c)) tys tgs dss (c_current c) (c_cpty c), o)
  else Some (false, c, o).

(** append_well_controls, wells.c:523-565: asserts and write-back. *)
Definition append_well_controls (ty : ctype) (target : V) (distr : option (list V))
    (i : nat) (W : wells) (o : list bool) : option (bool * wells * list bool) :=
  if decide (i < w_nw W) then
    match w_ctrls W !! i with
    | Some (Some c) =>
        r ← ctrl_append ty target distr (w_np W) c o;
        let '(ok, c, o) := r in
        cs ← upd (w_ctrls W) i (Some c);
        Some (ok, set_ctrl W cs, o)
    | _ => None
    end
  else None.

(** set_current_control, wells.c:568-581. *)
Definition set_current_control (i : nat) (current : Z) (W : wells) : option wells :=
  if decide (i < w_nw W) then
    match w_ctrls W !! i with
    | Some (Some c) =>
        if decide (current < Z.of_nat (c_num c))%Z then
          cs ← upd (w_ctrls W) i
                 (Some (Ctrl (c_num c) (c_type c) (c_target c) (c_distr c) current (c_cpty c)));
          Some (set_ctrl W cs)
        else None
    | _ => None
    end
  else None.

(** clear_well_controls, wells.c:584-595. *)
Definition clear_well_controls (i : nat) (W : wells) : option wells :=
  if decide (i < w_nw W) then
    match w_ctrls W !! i with
    | Some (Some c) =>
        cs ← upd (w_ctrls W) i
               (Some (Ctrl 0 (c_type c) (c_target c) (c_distr c) (c_current c) (c_cpty c)));
        Some (set_ctrl W cs)
    | Some None => Some W
    | None => None
    end
  else None.

(** Inner loop of clone_wells over the controls of one well, wells.c:642-652,
    including [assert (ok)]. *)
Fixpoint clone_ctrls (n k np w : nat) (src : ctrl) (R : wells) (o : list bool)
    : option (wells * list bool) :=
  match n with
  | 0 => Some (R, o)
  | S n' =>
      ty ← c_type src !! k;
      tg ← c_target src !! k;
      ds ← slice (c_distr src) (k * np) np;
      r ← append_well_controls ty tg (Some ds) w R o;
      let '(ok, R, o) := r in
      if (ok : bool) then clone_ctrls n' (S k) np w src R o else None
  end.

(** Outer loop of clone_wells, wells.c:624-660.  The result flag is [ok]; the
    [assert (ok)] after add_well is a [None].  The pointers W->WI and
    W->comp_frac are never NULL when they are used with a positive length; the
    NULL case (wells.c:628-629) is folded into reading zero elements. *)
Fixpoint clone_loop (n w pos : nat) (W R : wells) (o : list bool)
    : option (bool * wells * list bool) :=
  match n with
  | 0 => Some (true, R, o)
  | S n' =>
      pos' ← w_connpos W !! S w;
      if decide (pos ≤ pos') then
        let nperf := pos' - pos in
        cells ← slice (w_cells W) pos nperf;
        wi ← slice (w_WI W) pos nperf;
        cf ← slice (w_comp_frac W) (w * w_np W) (w_np W);
        ty ← w_type W !! w;
        dp ← w_depth W !! w;
        nm ← w_name W !! w;
        r ← add_well ty dp (Some cf) cells (Some wi) nm R o;
        let '(ok, R, o) := r in
        if (ok : bool) then
          match w_ctrls W !! w, w_ctrls R !! w with
          | Some (Some src), Some (Some dst) =>
              r ← well_controls_reserve (c_num src) (w_np W) dst o;
              let '(ok, dst, o) := r in
              cs ← upd (w_ctrls R) w (Some dst);
              let R := set_ctrl R cs in
              if (ok : bool) then
                r ← clone_ctrls (c_num src) 0 (w_np W) w src R o;
                let '(R, o) := r in
                R ← set_current_control w (c_current src) R;
                clone_loop n' (S w) pos' W R o
              else Some (false, R, o)
          | _, _ => None
          end
        else None
      else None
  end.

(** clone_wells, wells.c:598-670, for a non-NULL argument. *)
Definition clone_wells (W : wells) (o : list bool) : option (option wells * list bool) :=
  npf ← w_connpos W !! w_nw W;
  r ← create_wells (w_np W) (w_nw W) npf o;
  let '(R, o) := r in
  match R with
  | None => Some (None, o)
  | Some R =>
      pos ← w_connpos W !! 0;
      r ← clone_loop (w_nw W) 0 pos W R o;
      let '(ok, R, o) := r in
      if (ok : bool) then Some (Some R, o)
      else _ ← destroy_wells R; Some (None, o)
  end.

End wells.
Arguments ctrl V : clear implicits.
Arguments wells V name_t : clear implicits.
Arguments junk V name_t : clear implicits.
