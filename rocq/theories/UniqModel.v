(** Model of opm/core/grid/cpgpreprocess/uniquepoints.c: the points of the
    pillars of a corner-point grid and their numbers.

    Simplifications valid for the whole file:
    - depths are an abstract type [V] with a comparison [lt]; the only
      arithmetic on them is "+ tolerance", which is the function [shift], and
      interpolate_pillar, which is the function [interp] (modelled
      over the real numbers in PillarModel);
    - indices are natural numbers, int overflow is not modelled; point numbers
      in plist are [Z];
    - qsort is a function [qsort] on lists;
    - malloc is taken to succeed (the code does not check it), new memory holds
      an unknown value;
    - out->dimensions and g->dims are the same (process_grdecl sets both from
      in->dims, preprocess.c:812-814, 836-838). *)
From Verif Require Import Base LoopModel.

(** INT_MIN and INT_MAX. *)
Definition int_min : Z := -2147483648.
Definition int_max : Z := 2147483647.

(** vector_positions, uniquepoints.c:187-204. *)
Definition vector_positions (nx ny nz i j : nat) : list nat :=
  let im := Nat.max 1 i - 1 in
  let jm := Nat.max 1 j - 1 in
  let ip := Nat.min nx (i + 1) - 1 in
  let jp := Nat.min ny (j + 1) - 1 in
  [nz * (im + nx * jm); nz * (im + nx * jp); nz * (ip + nx * jm); nz * (ip + nx * jp)].

Section uniq.
Context {V : Type} (lt : V → V → Prop) `{!RelDecision lt} (shift : V → V) (qsort : list V → list V) (interp : list V → V → V * V).

(** createSortedList, uniquepoints.c:66-81: the inner loop over the four
    vectors [z[j]], [a[j]], given by their start positions, and the outer loop
    ([m] passes from [i] on); the values are in the order in which they are
    written. *)
Fixpoint collect_row (i : nat) (zs ss : list nat) (zcorn : list V) (actnum : list Z) : option (list V) :=
  match zs, ss with
  | z :: zs, s :: ss =>
    a ← actnum !! (s + i / 2);
    l ← (if decide (a ≠ 0)%Z then x ← zcorn !! (z + i); Some [x] else Some []);
    r ← collect_row i zs ss zcorn actnum;
    Some (l ++ r)
  | _, _ => Some []
  end.
Fixpoint collect (m i : nat) (zs ss : list nat) (zcorn : list V) (actnum : list Z) : option (list V) :=
  match m with
  | 0 => Some []
  | S m => l ← collect_row i zs ss zcorn actnum; r ← collect m (S i) zs ss zcorn actnum; Some (l ++ r)
  end.
(** The rest of createSortedList: [zout] is the place of [list] in zlist. *)
Definition create_sorted_list (zlist : list V) (zout n : nat) (zs ss : list nat) (zcorn : list V) (actnum : list Z) : option (nat * list V) :=
  l ← collect n 0 zs ss zcorn actnum;
  zlist ← memcpy zlist zout l;
  zlist ← memcpy zlist zout (qsort l);
  Some (length l, zlist).

(** The loop of uniquify, uniquepoints.c:101-106; [m] passes are left. *)
Fixpoint uniq_loop (m i pos : nat) (val : V) (l : list V) : option (nat * list V) :=
  match m with
  | 0 => Some (pos, l)
  | S m =>
    x ← l !! i;
    if decide (lt (shift val) x) then l ← upd l pos x; uniq_loop m (S i) (S pos) x l
    else uniq_loop m (S i) pos val l
  end.
(** uniquify, uniquepoints.c:87-123, on its own array [l]. *)
Definition uniquify (n : nat) (l : list V) : option (nat * list V) :=
  if decide (n < 1) then Some (0, l) else
  val ← l !! 0;
  '(pos, l) ← uniq_loop (n - 1) 1 1 val l;
  x ← l !! (n - 1);
  l ← upd l (pos - 1) x;
  Some (pos, l).

(** The while loop uniquepoints.c:163-165; the fuel is the distance to [stop]. *)
Fixpoint advance (fuel k stop : nat) (zlist : list V) (z : V) : option nat :=
  if decide (k < stop) then
    y ← zlist !! k;
    if decide (lt (shift y) z) then match fuel with 0 => None | S fuel => advance fuel (S k) stop zlist z end
    else Some k
  else Some k.
(** The loop of assignPointNumbers, uniquepoints.c:152-177; [m] passes are
    left, [zix] and [cix] are the places of zcorn and actnum, [p] that of the
    pointer into plist. *)
Fixpoint assign_loop (m i k stop : nat) (zlist zcorn : list V) (zix : nat) (actnum : list Z) (cix p : nat) (plist : list Z) : option (bool * list Z) :=
  match m with
  | 0 => plist ← upd plist p int_max; Some (true, plist)
  | S m =>
    a ← actnum !! (cix + i / 2);
    if decide (a = 0)%Z then
      x ← (if decide (p = 0) then None else plist !! (p - 1));
      plist ← upd plist p x;
      assign_loop m (S i) k stop zlist zcorn zix actnum cix (S p) plist
    else
      z ← zcorn !! (zix + i);
      k ← advance (stop - k) k stop zlist z;
      bad ← (if decide (k = stop) then Some true else y ← zlist !! k; Some (bool_decide (lt (shift y) z)));
      if (bad : bool) then Some (false, plist) else
      plist ← upd plist p (Z.of_nat k);
      assign_loop m (S i) k stop zlist zcorn zix actnum cix (S p) plist
  end.
(** assignPointNumbers, uniquepoints.c:128-182. *)
Definition assign_point_numbers (start stop : nat) (zlist : list V) (n : nat) (zcorn : list V) (zix : nat) (actnum : list Z) (cix : nat)
    (plist : list Z) (p : nat) : option (bool * list Z) :=
  plist ← upd plist p int_min;
  assign_loop n 0 start stop zlist zcorn zix actnum cix (S p) plist.

(** The loop uniquepoints.c:330-334 with interpolate_pillar inlined; the state
    is node_coordinates and the place of pt, [cpos] the place of coord. *)
Definition put_nodes (len zout : nat) (zlist coord : list V) (cpos : nat) (s : list V * nat) : option (list V * nat) :=
  for_loop len 0 (λ k '(nodes, pt),
    z ← zlist !! (zout + k);
    nodes ← upd nodes (pt + 2) z;
    c ← slice coord cpos 6;
    let '(x, y) := interp c z in
    nodes ← upd nodes pt x;
    nodes ← upd nodes (pt + 1) y;
    Some (nodes, pt + 3)) s.

(** The state of the first loop of finduniquepoints. *)
Record pstate := PState { p_zlist : list V; p_zout : nat; p_zptr : list nat; p_pos : nat; p_nodes : list V; p_pt : nat; p_coord : nat }.
(** One pillar, uniquepoints.c:323-341. *)
Definition one_pillar (nx ny nz : nat) (coord zcorn : list V) (actnum : list Z) (i j : nat) (s : pstate) : option pstate :=
  let ss := vector_positions nx ny nz i j in
  let zs := vector_positions (2 * nx) (2 * ny) (2 * nz) (2 * i) (2 * j) in
  '(len, zlist) ← create_sorted_list (p_zlist s) (p_zout s) (2 * nz) zs ss zcorn actnum;
  l ← slice zlist (p_zout s) len;
  '(len, l) ← uniquify len l;
  zlist ← memcpy zlist (p_zout s) l;
  '(nodes, pt) ← put_nodes len (p_zout s) zlist coord (p_coord s) (p_nodes s, p_pt s);
  zptr ← upd (p_zptr s) (p_pos s) (p_zout s + len);
  Some (PState zlist (p_zout s + len) zptr (p_pos s + 1) nodes pt (p_coord s + 6)).
(** One column of corners, uniquepoints.c:353-374; the flag is lowered by the
    return of line 371. *)
Definition one_column (nx nz : nat) (zlist : list V) (zptr : list nat) (zcorn : list V) (actnum : list Z) (i j : nat) (s : bool * list Z * nat) :
    option (bool * list Z * nat) :=
  let '(ok, plist, p) := s in
  if (ok : bool) then
    let pix := (i + 1) / 2 + (nx + 1) * ((j + 1) / 2) in
    let cix := nz * (i / 2 + j / 2 * nx) in
    let zix := 2 * nz * (i + 2 * nx * j) in
    b ← zptr !! pix;
    e ← zptr !! (pix + 1);
    '(ok, plist) ← assign_point_numbers b e zlist (2 * nz) zcorn zix actnum cix plist p;
    Some (ok, plist, p + (2 + 2 * nz))
  else Some s.
(** What finduniquepoints leaves behind: the value returned, plist,
    number_of_nodes (and number_of_nodes_on_pillars) and node_coordinates. *)
Record upoints := UPoints { u_ok : bool; u_plist : list Z; u_num : nat; u_nodes : list V }.
(** finduniquepoints, uniquepoints.c:263-383; [junk] fills new memory. *)
Definition finduniquepoints (junk : V) (nx ny nz : nat) (coord zcorn : list V) (actnum : list Z) (plist : list Z) : option upoints :=
  let s := PState (replicate (8 * (nx + 1) * (ny + 1) * nz) junk) 0 (replicate ((nx + 1) * (ny + 1) + 1) 0) 0 (replicate (3 * 8 * (nx * ny * nz)) junk) 0 0 in
  zptr ← upd (p_zptr s) (p_pos s) (p_zout s);
  let s := PState (p_zlist s) (p_zout s) zptr 1 (p_nodes s) 0 0 in
  s ← for_loop (ny + 1) 0 (λ j, for_loop (nx + 1) 0 (λ i, one_pillar nx ny nz coord zcorn actnum i j)) s;
  num ← p_zptr s !! (p_pos s - 1);
  '(ok, plist, _) ← for_loop (2 * ny) 0 (λ j, for_loop (2 * nx) 0 (λ i, one_column nx nz (p_zlist s) (p_zptr s) zcorn actnum i j)) (true, plist, 0);
  Some (UPoints ok plist num (p_nodes s)).
End uniq.
