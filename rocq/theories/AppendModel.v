(** Growing tables of boundary conditions and sources:
    opm/core/pressure/flow_bc.c, opm/core/transport/implicit/transport_source.c,
    opm/core/pressure/tpfa/compr_source.c and opm/core/pressure/tpfa/compr_bc.c.

    Doubles are only copied: abstract type [V].  Fresh memory holds arbitrary
    values.  int/size_t counters are natural numbers (no overflow).  memcpy of
    zero elements is a no-op even from a null pointer. *)
From Verif Require Import Base.

(** A pointer to an array: NULL, a live block, or a block that was freed. *)
Inductive buf (A : Type) := Null | Live (l : list A) | Freed.
Arguments Null {A}.
Arguments Live {A} l.
Arguments Freed {A}.

Section ptr.
Context {A : Type}.
(** The array behind a pointer; using a freed block is undefined behaviour. *)
Definition deref (b : buf A) : option (list A) := match b with Live l => Some l | _ => None end.
(** free: fine for NULL and live blocks, undefined for freed ones. *)
Definition can_free (b : buf A) : bool := match b with Freed => false | _ => true end.
(** realloc to [n] elements.  [Some (r, o)]: [r] is the new block, or [None] if
    the call returned NULL, in which case the old block is still there. *)
Definition brealloc (j : A) (n : nat) (b : buf A) (o : list bool) : option (option (list A) * list bool) :=
  match b with
  | Freed => None
  | Null => let '(ok, o) := next_alloc o in Some (if ok then Some (replicate n j) else None, o)
  | Live l => let '(ok, o) := next_alloc o in Some (if ok then Some (realloc_arr j n l) else None, o)
  end.
(** The test [r != NULL]. *)
Definition got (r : option (list A)) : bool := match r with Some _ => true | None => false end.
(** What an old pointer is worth after the new block was freed: dead if realloc
    had succeeded on a real block. *)
Definition stale (b : buf A) (r : option (list A)) : buf A :=
  match r with None => b | Some _ => match b with Null => Null | _ => Freed end end.
Definition keep (b : buf A) (r : option (list A)) : buf A := match r with None => b | Some l => Live l end.
Definition put1 (b : buf A) (i : nat) (x : A) : option (buf A) := l ← deref b; l ← upd l i x; Some (Live l).
Definition putn (b : buf A) (i : nat) (xs : list A) : option (buf A) :=
  match xs with [] => Some b | _ => l ← deref b; l ← memcpy l i xs; Some (Live l) end.
End ptr.

Section flow.
Context {V bctype : Type}.
(** struct FlowBoundaryConditions, flow_bc.h:39-50. *)
Record fbc := Fbc { f_nbc : nat; f_ccpty : nat; f_fcpty : nat;
  f_type : buf bctype; f_value : buf V; f_pos : buf nat; f_face : buf Z }.
Variables (jt : bctype) (jv : V) (jn : nat) (jz : Z).

(** alloc_size, flow_bc.c:32-45. *)
Definition alloc_size (n c : nat) : nat := if decide (c < n) then let c := c * 2 in if decide (c < n) then n else c else c.
(** expand_tables, flow_bc.c:69-113. *)
Definition expand_tables (nbc nf : nat) (s : fbc) (o : list bool) : option (bool * fbc * list bool) :=
  '(okc, s, o) ← (if decide (nbc ≤ f_ccpty s) then Some (true, s, o) else
    let sz := alloc_size nbc (f_ccpty s) in
    '(p1, o) ← brealloc jt sz (f_type s) o;
    '(p2, o) ← brealloc jv sz (f_value s) o;
    '(p3, o) ← brealloc jn (sz + 1) (f_pos s) o;
    let ok := got p1 && got p2 && got p3 in
    Some (ok, Fbc (f_nbc s) (if ok then sz else f_ccpty s) (f_fcpty s)
                (keep (f_type s) p1) (keep (f_value s) p2) (keep (f_pos s) p3) (f_face s), o));
  (** ok_face was computed before the first branch from fields it leaves alone *)
  '(okf, s, o) ← (if decide (nf ≤ f_fcpty s) then Some (true, s, o) else
    let sz := alloc_size nf (f_fcpty s) in
    '(p4, o) ← brealloc jz sz (f_face s) o;
    let ok := got p4 in
    Some (ok, Fbc (f_nbc s) (f_ccpty s) (if ok then sz else f_fcpty s) (f_type s) (f_value s) (f_pos s) (keep (f_face s) p4), o));
  Some (okc && okf, s, o).
(** flow_conditions_destroy, flow_bc.c:157-169. *)
Definition fbc_destroy (s : fbc) : option unit :=
  if can_free (f_face s) && can_free (f_pos s) && can_free (f_value s) && can_free (f_type s) then Some tt else None.
(** flow_conditions_construct with initialise_structure, flow_bc.c:51-65, 126-151. *)
Definition fbc_construct (nbc : nat) (o : list bool) : option (option fbc * list bool) :=
  let '(b1, o) := next_alloc o in
  if b1 then
    let '(b2, o) := next_alloc o in
    let s := Fbc 0 0 0 Null Null (if b2 then Live [jn] else Null) Null in
    '(ok, s, o) ← (if b2 : bool then expand_tables nbc nbc s o else Some (false, s, o));
    if ok : bool then
      pos ← put1 (f_pos s) 0 0; Some (Some (Fbc (f_nbc s) (f_ccpty s) (f_fcpty s) (f_type s) (f_value s) pos (f_face s)), o)
    else _ ← fbc_destroy s; Some (None, o)
  else Some (None, o).
(** flow_conditions_append_multi, flow_bc.c:193-222; flow_conditions_append
    (177-185) is the case of one face. *)
Definition fbc_append (ty : bctype) (faces : list Z) (v : V) (s : fbc) (o : list bool) : option (bool * fbc * list bool) :=
  let nbc := f_nbc s in
  pos ← deref (f_pos s); p ← pos !! nbc;
  '(ok, s, o) ← expand_tables (nbc + 1) (p + length faces) s o;
  if ok : bool then
    pos ← deref (f_pos s); p ← pos !! nbc;
    face ← putn (f_face s) p faces;
    type ← put1 (f_type s) nbc ty;
    value ← put1 (f_value s) nbc v;
    pos ← put1 (f_pos s) (nbc + 1) (p + length faces);
    Some (true, Fbc (f_nbc s + 1) (f_ccpty s) (f_fcpty s) type value pos face, o)
  else Some (false, s, o).
(** flow_conditions_clear, flow_bc.c:227-234. *)
Definition fbc_clear (s : fbc) : fbc := Fbc 0 (f_ccpty s) (f_fcpty s) (f_type s) (f_value s) (f_pos s) (f_face s).
End flow.
Arguments fbc : clear implicits.

Section sources.
Context {V : Type}.
Variables (jz : Z) (jv : V).

(** ** transport_source.c *)
(** struct TransportSource, transport_source.h:43-54. *)
Record tsrc := TSrc { s_nsrc : nat; s_cpty : nat; s_np : nat;
  s_cell : buf Z; s_press : buf V; s_flux : buf V; s_sat : buf V; s_surf : buf V }.
(** expand_source_tables, transport_source.c:44-71. *)
Definition ts_expand (alloc : nat) (s : tsrc) (o : list bool) : option (nat * tsrc * list bool) :=
  '(c, o) ← brealloc jz alloc (s_cell s) o;
  '(p, o) ← brealloc jv alloc (s_press s) o;
  '(v, o) ← brealloc jv alloc (s_flux s) o;
  '(sa, o) ← brealloc jv (alloc * s_np s) (s_sat s) o;
  '(z, o) ← brealloc jv (alloc * s_np s) (s_surf s) o;
  match c, p, v, sa, z with
  | Some c, Some p, Some v, Some sa, Some z =>
      Some (alloc, TSrc (s_nsrc s) alloc (s_np s) (Live c) (Live p) (Live v) (Live sa) (Live z), o)
  | _, _, _, _, _ =>
      Some (0, TSrc (s_nsrc s) (s_cpty s) (s_np s) (stale (s_cell s) c) (stale (s_press s) p) (stale (s_flux s) v)
                    (stale (s_sat s) sa) (stale (s_surf s) z), o)
  end.
(** destroy_transport_source, transport_source.c:118-129. *)
Definition ts_destroy (s : tsrc) : option unit :=
  if can_free (s_surf s) && can_free (s_sat s) && can_free (s_flux s) && can_free (s_press s) && can_free (s_cell s)
  then Some tt else None.
(** create_transport_source, transport_source.c:80-114. *)
Definition ts_create (nsrc np : nat) (o : list bool) : option (option tsrc * list bool) :=
  if decide (np = 0) then Some (None, o) else
  let '(b, o) := next_alloc o in
  if b then
    let s := TSrc 0 0 np Null Null Null Null Null in
    '(status, s, o) ← (if decide (0 < nsrc) then ts_expand nsrc s o else Some (1, s, o));
    if decide (status = 0) then _ ← ts_destroy s; Some (None, o) else Some (Some s, o)
  else Some (None, o).
(** append_transport_source, transport_source.c:133-173.  The arrays [sat] and
    [z] are read up to [np] entries. *)
Definition ts_append (c : Z) (np : nat) (p v : V) (sat z : list V) (s : tsrc) (o : list bool) : option (Z * tsrc * list bool) :=
  if decide (np ≠ s_np s) then Some ((-1)%Z, s, o) else
  '(status, s, o) ← (if decide (s_nsrc s = s_cpty s)
     then ts_expand (if decide (0 < s_cpty s) then 2 * s_cpty s else 1) s o else Some (1, s, o));
  if decide (0 < status) then
    let n := s_nsrc s in
    cell ← put1 (s_cell s) n c;
    press ← put1 (s_press s) n p;
    flux ← put1 (s_flux s) n v;
    sat ← slice sat 0 np; sa ← putn (s_sat s) (n * np) sat;
    z ← slice z 0 np; surf ← putn (s_surf s) (n * np) z;
    Some (1%Z, TSrc (n + 1) (s_cpty s) (s_np s) cell press flux sa surf, o)
  else Some (0%Z, s, o).
(** clear_transport_source, transport_source.c:177-182. *)
Definition ts_clear (s : tsrc) : tsrc := TSrc 0 (s_cpty s) (s_np s) (s_cell s) (s_press s) (s_flux s) (s_sat s) (s_surf s).

(** ** compr_source.c *)
(** struct compr_src, compr_source.h:52-85. *)
Record csrc := CSrc { q_nsrc : nat; q_cpty : nat; q_np : nat; q_cell : buf Z; q_flux : buf V; q_sat : buf V }.
(** expand_source_tables, compr_source.c:43-66. *)
Definition cs_expand (alloc : nat) (s : csrc) (o : list bool) : option (nat * csrc * list bool) :=
  '(c, o) ← brealloc jz alloc (q_cell s) o;
  '(v, o) ← brealloc jv alloc (q_flux s) o;
  '(sa, o) ← brealloc jv (alloc * q_np s) (q_sat s) o;
  match c, v, sa with
  | Some c, Some v, Some sa => Some (alloc, CSrc (q_nsrc s) alloc (q_np s) (Live c) (Live v) (Live sa), o)
  | _, _, _ => Some (0, CSrc (q_nsrc s) (q_cpty s) (q_np s) (stale (q_cell s) c) (stale (q_flux s) v) (stale (q_sat s) sa), o)
  end.
(** compr_src_deallocate, compr_source.c:113-124. *)
Definition cs_destroy (s : csrc) : option unit :=
  if can_free (q_sat s) && can_free (q_flux s) && can_free (q_cell s) then Some tt else None.
(** compr_src_allocate, compr_source.c:74-109. *)
Definition cs_create (np nsrc : nat) (o : list bool) : option (option csrc * list bool) :=
  if decide (np = 0) then Some (None, o) else
  let '(b, o) := next_alloc o in
  if b then
    let s := CSrc 0 0 np Null Null Null in
    '(status, s, o) ← (if decide (0 < nsrc) then cs_expand nsrc s o else Some (1, s, o));
    if decide (status = 0) then _ ← cs_destroy s; Some (None, o) else Some (Some s, o)
  else Some (None, o).
(** append_compr_source_term, compr_source.c:128-161, with its assertion. *)
Definition cs_append (c : Z) (np : nat) (v : V) (sat : list V) (s : csrc) (o : list bool) : option (Z * csrc * list bool) :=
  if decide (np ≠ q_np s) then Some ((-1)%Z, s, o) else
  '(status, s, o) ← (if decide (q_nsrc s = q_cpty s)
     then cs_expand (if decide (0 < q_cpty s) then 2 * q_cpty s else 1) s o
     else if decide (q_nsrc s < q_cpty s) then Some (1, s, o) else None);
  if decide (0 < status) then
    let n := q_nsrc s in
    cell ← put1 (q_cell s) n c;
    flux ← put1 (q_flux s) n v;
    sat ← slice sat 0 np; sa ← putn (q_sat s) (n * np) sat;
    Some (1%Z, CSrc (n + 1) (q_cpty s) (q_np s) cell flux sa, o)
  else Some (0%Z, s, o).
(** clear_compr_source_term, compr_source.c:165-170. *)
Definition cs_clear (s : csrc) : csrc := CSrc 0 (q_cpty s) (q_np s) (q_cell s) (q_flux s) (q_sat s).

(** ** compr_bc.c *)
Context {bty : Type} (jt : bty).
(** struct compr_bc, compr_bc.h:45-57. *)
Record cbc := CBc { b_nbc : nat; b_cpty : nat; b_np : nat;
  b_type : buf bty; b_face : buf Z; b_press : buf V; b_flux : buf V; b_sat : buf V }.
(** expand_source_tables, compr_bc.c:43-70: cpty is not assigned. *)
Definition cb_expand (alloc : nat) (s : cbc) (o : list bool) : option (nat * cbc * list bool) :=
  '(t, o) ← brealloc jt alloc (b_type s) o;
  '(f, o) ← brealloc jz alloc (b_face s) o;
  '(p, o) ← brealloc jv alloc (b_press s) o;
  '(v, o) ← brealloc jv alloc (b_flux s) o;
  '(sa, o) ← brealloc jv (alloc * b_np s) (b_sat s) o;
  match t, f, p, v, sa with
  | Some t, Some f, Some p, Some v, Some sa =>
      Some (alloc, CBc (b_nbc s) (b_cpty s) (b_np s) (Live t) (Live f) (Live p) (Live v) (Live sa), o)
  | _, _, _, _, _ =>
      Some (0, CBc (b_nbc s) (b_cpty s) (b_np s) (stale (b_type s) t) (stale (b_face s) f) (stale (b_press s) p)
                   (stale (b_flux s) v) (stale (b_sat s) sa), o)
  end.
(** compr_bc_append, compr_bc.c:137-174, with its assertion. *)
Definition cb_append (t : bty) (f : Z) (np : nat) (p v : V) (sat : list V) (s : cbc) (o : list bool) : option (Z * cbc * list bool) :=
  if decide (np ≠ b_np s) then Some ((-1)%Z, s, o) else
  '(status, s, o) ← (if decide (b_nbc s = b_cpty s)
     then cb_expand (if decide (0 < b_cpty s) then 2 * b_cpty s else 1) s o
     else if decide (b_nbc s < b_cpty s) then Some (1, s, o) else None);
  if decide (0 < status) then
    let n := b_nbc s in
    type ← put1 (b_type s) n t;
    face ← put1 (b_face s) n f;
    press ← put1 (b_press s) n p;
    flux ← put1 (b_flux s) n v;
    sat ← slice sat 0 np; sa ← putn (b_sat s) (n * np) sat;
    Some (1%Z, CBc (n + 1) (b_cpty s) (b_np s) type face press flux sa, o)
  else Some (0%Z, s, o).
(** compr_bc_allocate with compr_bc_deallocate, compr_bc.c:79-133. *)
Definition cb_destroy (s : cbc) : option unit :=
  if can_free (b_sat s) && can_free (b_flux s) && can_free (b_press s) && can_free (b_face s) && can_free (b_type s)
  then Some tt else None.
Definition cb_create (np nbc : nat) (o : list bool) : option (option cbc * list bool) :=
  if decide (np = 0) then Some (None, o) else
  let '(b, o) := next_alloc o in
  if b then
    let s := CBc 0 0 np Null Null Null Null Null in
    '(status, s, o) ← (if decide (0 < nbc) then cb_expand nbc s o else Some (1, s, o));
    if decide (status = 0) then _ ← cb_destroy s; Some (None, o) else Some (Some s, o)
  else Some (None, o).
End sources.
