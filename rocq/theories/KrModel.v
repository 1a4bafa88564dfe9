(** Model of the saturation functions: opm/core/props/satfunc/SatFuncSimple.cpp,
    SatFuncStone2.cpp and SatFuncGwseg.cpp.

    Each file defines two classes, ...Uniform and ...Nonuniform, whose text
    differs only in the type of the tables and in [init]; here a table is a
    pair of functions, its operator() and its derivative().  The three files
    share the code for two phases (but for one argument in SatFuncSimple.cpp)
    and for capillary pressures.

    Simplifications valid for the whole file:
    - doubles are real numbers: no rounding; dividing by zero is [None];
    - an access outside an array and a failed ASSERT are [None];
    - a pointer is the list of what lies from there to the end of the array; the
      arrays s, kr and dkrds do not overlap. *)
From Coq Require Import Reals.
From Verif Require Import Base LoopModel TableModel PhaseModel.
Local Open Scope R_scope.

(** operator() and derivative() of UniformTableLinear and
    NonuniformTableLinear, e.g. NonuniformTableLinear.hpp:156-170. *)
Record table := Table { tv : R → option R; td : R → option R }.
(** UniformTableLinear.hpp:165-212. *)
Definition of_utable (t : utable) : table := Table (ut_eval t) (ut_derivative t).
(** NonuniformTableLinear.hpp:156-170. *)
Definition of_ntable (t : ntable) : table := Table (nt_eval (length (nt_x t)) t) (nt_derivative (length (nt_x t)) t).

(** Data members, SatFuncSimple.hpp:41-59, and the same in the other headers. *)
Record satfunc := SatFunc {
  sf_smin : list R; sf_smax : list R;
  sf_krwmax : R; sf_kromax : R; sf_swcr : R; sf_krwr : R; sf_sowcr : R; sf_krorw : R;
  sf_pu : phase_usage;
  sf_krw : table; sf_krow : table; sf_pcow : table; sf_krg : table; sf_krog : table; sf_pcog : table;
  sf_krocw : R }.

(** phase_usage.phase_used[...] and phase_usage.phase_pos[...]. *)
Definition used (F : satfunc) (p : phase) : option bool := u ← pu_used (sf_pu F) !! phase_index p; Some (bool_decide (u ≠ 0%nat)).
Definition pos (F : satfunc) (p : phase) : option nat := pu_pos (sf_pu F) !! phase_index p.
Notation A := (phase_index Aqua).
Notation L := (phase_index Liquid).
Notation V := (phase_index Vapour).

(** The three models. *)
Inductive model := Simple | Stone2 | Gwseg.

(** ** Three phases *)
(** SatFuncSimple.cpp:109-119. *)
Definition simple3 (F : satfunc) (s kr : list R) : option (list R) :=
  sw ← s !! A; sg ← s !! V;
  krw ← tv (sf_krw F) sw;
  krg ← tv (sf_krg F) sg;
  krow ← tv (sf_krow F) (sw + sg);
  kr ← upd kr A krw;
  kr ← upd kr V krg;
  kr ← upd kr L krow;
  o ← kr !! L;
  if Rlt_dec o 0 then upd kr L 0 else Some kr.
(** SatFuncStone2.cpp:85-99. *)
Definition stone3 (F : satfunc) (s kr : list R) : option (list R) :=
  sw ← s !! A; sg ← s !! V;
  krw ← tv (sf_krw F) sw;
  krg ← tv (sf_krg F) sg;
  krow ← tv (sf_krow F) (sw + sg);
  krog ← tv (sf_krog F) sg;
  let krocw := sf_krocw F in
  kr ← upd kr A krw;
  kr ← upd kr V krg;
  a ← rdiv krow krocw; b ← rdiv krog krocw;
  kr ← upd kr L (krocw * ((a + krw) * (b + krg) - krw - krg));
  o ← kr !! L;
  if Rlt_dec o 0 then upd kr L 0 else Some kr.
(** eps, SatFuncGwseg.cpp:90. *)
Definition eps : R := / 1000000.
(** SatFuncGwseg.cpp:84-104. *)
Definition gwseg3 (F : satfunc) (s kr : list R) : option (list R) :=
  i ← pos F Aqua; swco ← sf_smin F !! i;
  sa ← s !! A; sg ← s !! V;
  let sw := Rmax sa swco in
  xw ← rdiv (sw - swco) (Rmax (sg + sw - swco) eps);
  let xg := 1 - xw in
  let ssw := sg + sw in
  let ssg := sw - swco + sg in
  krw ← tv (sf_krw F) ssw;
  krg ← tv (sf_krg F) ssg;
  krow ← tv (sf_krow F) ssw;
  krog ← tv (sf_krog F) ssg;
  kr ← upd kr A (xw * krw);
  kr ← upd kr V (xg * krg);
  upd kr L (xw * krow + xg * krog).

(** ** Two phases *)
(** SatFuncSimple.cpp:124-143, SatFuncStone2.cpp:101-118 and
    SatFuncGwseg.cpp:105-122.  The argument of krow_ is 1-so in the first file
    and sw in the others. *)
Definition two (m : model) (F : satfunc) (s kr : list R) : option (list R) :=
  ua ← used F Aqua;
  if (ua : bool) then
    wpos ← pos F Aqua; opos ← pos F Liquid;
    sw ← s !! wpos;
    krw ← tv (sf_krw F) sw;
    x ← (match m with Simple => so ← s !! opos; Some (1 - so) | _ => Some sw end);
    krow ← tv (sf_krow F) x;
    kr ← upd kr wpos krw;
    upd kr opos krow
  else
    ug ← used F Vapour;
    if (ug : bool) then
      gpos ← pos F Vapour; opos ← pos F Liquid;
      sg ← s !! gpos;
      krg ← tv (sf_krg F) sg;
      krog ← tv (sf_krog F) sg;
      kr ← upd kr gpos krg;
      upd kr opos krog
    else None.

(** evalKr: SatFuncSimple.cpp:105-144 and 331-370, SatFuncStone2.cpp:81-119 and
    275-313, SatFuncGwseg.cpp:81-123 and 286-328. *)
Definition eval_kr (m : model) (F : satfunc) (s kr : list R) : option (list R) :=
  if decide (pu_num (sf_pu F) = 3%nat) then
    match m with Simple => simple3 F s kr | Stone2 => stone3 F s kr | Gwseg => gwseg3 F s kr end
  else two m F s kr.

(** ** Derivatives *)
(** std::fill(dkrds, dkrds + np*np, 0.0), e.g. SatFuncSimple.cpp:150. *)
Definition fill0 (n : nat) (d : list R) : option (list R) := for_loop n 0 (λ i d, upd d i 0) d.

(** SatFuncSimple.cpp:152-181. *)
Definition simple3_deriv (F : satfunc) (s kr d : list R) : option (list R * list R) :=
  let np := 3%nat in
  sw ← s !! A; sg ← s !! V;
  krw ← tv (sf_krw F) sw;
  dkrww ← td (sf_krw F) sw;
  krg ← tv (sf_krg F) sg;
  dkrgg ← td (sf_krg F) sg;
  krow ← tv (sf_krow F) (sw + sg);
  dkrow ← td (sf_krow F) (sw + sg);
  kr ← upd kr A krw;
  kr ← upd kr V krg;
  kr ← upd kr L krow;
  o ← kr !! L;
  kr ← (if Rlt_dec o 0 then upd kr L 0 else Some kr);
  d ← upd d (A + A * np) dkrww;
  d ← upd d (V + V * np) dkrgg;
  d ← upd d (L + L * np) (- dkrow);
  d ← upd d (L + V * np) 0;
  Some (kr, d).
(** SatFuncStone2.cpp:127-152. *)
Definition stone3_deriv (F : satfunc) (s kr d : list R) : option (list R * list R) :=
  let np := 3%nat in
  sw ← s !! A; sg ← s !! V;
  krw ← tv (sf_krw F) sw;
  dkrww ← td (sf_krw F) sw;
  krg ← tv (sf_krg F) sg;
  dkrgg ← td (sf_krg F) sg;
  krow ← tv (sf_krow F) (sw + sg);
  dkrow ← td (sf_krow F) (sw + sg);
  krog ← tv (sf_krog F) sg;
  dkrog ← td (sf_krog F) sg;
  let krocw := sf_krocw F in
  kr ← upd kr A krw;
  kr ← upd kr V krg;
  a ← rdiv krow krocw; b ← rdiv krog krocw;
  kr ← upd kr L (krocw * ((a + krw) * (b + krg) - krw - krg));
  o ← kr !! L;
  kr ← (if Rlt_dec o 0 then upd kr L 0 else Some kr);
  d ← upd d (A + A * np) dkrww;
  d ← upd d (V + V * np) dkrgg;
  da ← rdiv dkrow krocw; db ← rdiv dkrog krocw;
  d ← upd d (L + A * np) (krocw * ((da + dkrww) * (b + krg) - dkrww));
  d ← upd d (L + V * np) (krocw * ((a + krw) * (db + dkrgg) - dkrgg) + krocw * ((da + krw) * (b + krg) - dkrgg));
  Some (kr, d).
(** SatFuncGwseg.cpp:131-164. *)
Definition gwseg3_deriv (F : satfunc) (s kr d : list R) : option (list R * list R) :=
  let np := 3%nat in
  i ← pos F Aqua; swco ← sf_smin F !! i;
  sa ← s !! A; sg ← s !! V;
  let sw := Rmax sa swco in
  xw ← rdiv (sw - swco) (Rmax (sg + sw - swco) eps);
  let xg := 1 - xw in
  let ssw := sg + sw in
  let ssg := sw - swco + sg in
  krw ← tv (sf_krw F) ssw;
  krg ← tv (sf_krg F) ssg;
  krow ← tv (sf_krow F) ssw;
  krog ← tv (sf_krog F) ssg;
  kr ← upd kr A (xw * krw);
  kr ← upd kr V (xg * krg);
  kr ← upd kr L (xw * krow + xg * krog);
  dkrww ← td (sf_krw F) ssw;
  dkrgg ← td (sf_krg F) ssg;
  dkrow ← td (sf_krow F) ssw;
  dkrog ← td (sf_krog F) ssg;
  qg ← rdiv xg ssg; qw ← rdiv xw ssg;
  d ← upd d (A + A * np) (qg * krw + xw * dkrww);
  d ← upd d (A + V * np) (- qw * krw + xw * dkrww);
  d ← upd d (L + A * np) (qg * krow + xw * dkrow - qg * krog + xg * dkrog);
  d ← upd d (L + V * np) (- qw * krow + xw * dkrow + qw * krog + xg * dkrog);
  d ← upd d (V + A * np) (- qg * krg + xg * dkrgg);
  d ← upd d (V + V * np) (qw * krg + xg * dkrgg);
  Some (kr, d).
(** SatFuncSimple.cpp:183-209, SatFuncStone2.cpp:154-179 and
    SatFuncGwseg.cpp:166-191. *)
Definition two_deriv (m : model) (F : satfunc) (s kr d : list R) : option (list R * list R) :=
  let np := pu_num (sf_pu F) in
  ua ← used F Aqua;
  if (ua : bool) then
    wpos ← pos F Aqua; opos ← pos F Liquid;
    sw ← s !! wpos;
    krw ← tv (sf_krw F) sw;
    dkrww ← td (sf_krw F) sw;
    x ← (match m with Simple => so ← s !! opos; Some (1 - so) | _ => Some sw end);
    krow ← tv (sf_krow F) x;
    dkrow ← td (sf_krow F) x;
    kr ← upd kr wpos krw;
    kr ← upd kr opos krow;
    d ← upd d (wpos + wpos * np) dkrww;
    d ← upd d (opos + wpos * np) dkrow;
    Some (kr, d)
  else
    ug ← used F Vapour;
    if (ug : bool) then
      gpos ← pos F Vapour; opos ← pos F Liquid;
      sg ← s !! gpos;
      krg ← tv (sf_krg F) sg;
      dkrgg ← td (sf_krg F) sg;
      krog ← tv (sf_krog F) sg;
      dkrog ← td (sf_krog F) sg;
      kr ← upd kr gpos krg;
      kr ← upd kr opos krog;
      d ← upd d (gpos + gpos * np) dkrgg;
      d ← upd d (opos + gpos * np) dkrog;
      Some (kr, d)
    else None.
(** evalKrDeriv: SatFuncSimple.cpp:147-211 and 373-437, SatFuncStone2.cpp:122-181
    and 316-375, SatFuncGwseg.cpp:126-193 and 331-398. *)
Definition eval_kr_deriv (m : model) (F : satfunc) (s kr d : list R) : option (list R * list R) :=
  let np := pu_num (sf_pu F) in
  d ← fill0 (np * np) d;
  if decide (np = 3%nat) then
    match m with Simple => simple3_deriv F s kr d | Stone2 => stone3_deriv F s kr d | Gwseg => gwseg3_deriv F s kr d end
  else two_deriv m F s kr d.

(** ** Capillary pressure *)
(** evalPc, SatFuncSimple.cpp:214-225 and 440-451, SatFuncStone2.cpp:184-195 and
    378-389, SatFuncGwseg.cpp:196-207 and 401-412. *)
Definition eval_pc (F : satfunc) (s pc : list R) : option (list R) :=
  opos ← pos F Liquid;
  pc ← upd pc opos 0;
  ua ← used F Aqua;
  pc ← (if (ua : bool) then p ← pos F Aqua; x ← s !! p; v ← tv (sf_pcow F) x; upd pc p v else Some pc);
  ug ← used F Vapour;
  if (ug : bool) then p ← pos F Vapour; x ← s !! p; v ← tv (sf_pcog F) x; upd pc p v else Some pc.
(** evalPcDeriv, SatFuncSimple.cpp:227-248 and 453-474, SatFuncStone2.cpp:197-218
    and 391-412, SatFuncGwseg.cpp:209-230 and 414-435. *)
Definition eval_pc_deriv (F : satfunc) (s pc d : list R) : option (list R * list R) :=
  let np := pu_num (sf_pu F) in
  d ← fill0 (np * np) d;
  opos ← pos F Liquid;
  pc ← upd pc opos 0;
  ua ← used F Aqua;
  '(pc, d) ← (if (ua : bool) then
      p ← pos F Aqua; x ← s !! p; v ← tv (sf_pcow F) x; pc ← upd pc p v;
      w ← td (sf_pcow F) x; d ← upd d (np * p + p) w; Some (pc, d)
    else Some (pc, d));
  ug ← used F Vapour;
  if (ug : bool) then
    p ← pos F Vapour; x ← s !! p; v ← tv (sf_pcog F) x; pc ← upd pc p v;
    w ← td (sf_pcog F) x; d ← upd d (np * p + p) w; Some (pc, d)
  else Some (pc, d).
