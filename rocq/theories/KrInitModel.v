(** Model of SatFuncSimple.cpp, SatFuncStone2.cpp and SatFuncGwseg.cpp, init, and of
    opm/core/utility/buildUniformMonotoneTable.hpp.

    Simplifications valid for the whole file: those of KrModel.v; the deck is
    given by the tables of its keywords SWOF and SGOF, each a list of tables with
    one list for each column; an exception is [None]. *)
From Coq Require Import Reals.
From Verif Require Import Base LoopModel TableModel PhaseModel MonoModel KrModel.
Local Open Scope R_scope.

(** buildUniformMonotoneTable.hpp:28-44. [junk] is the content of the flags of the
    interpolator before they are set. *)
Definition build_uniform junk (xv yv : list R) (samples : nat) : option utable :=
  interp ← mci_new junk xv yv;
  xmin ← xv !! 0%nat;
  xmax ← last xv;
  uniform_yv ← mapM (λ i, w ← rdiv (INR i) (INR samples - 1); evaluate interp ((1 - w) * xmin + w * xmax)) (seq 0 samples);
  ut_make xmin xmax uniform_yv.

(** The tables of the ...Uniform classes, e.g. SatFuncSimple.cpp:53-55. *)
Definition mk_uniform junk samples (xv yv : list R) : option table := t ← build_uniform junk xv yv samples; Some (of_utable t).
(** The tables of the ...Nonuniform classes, e.g. SatFuncSimple.cpp:278-280. *)
Definition mk_nonuniform (xv yv : list R) : option table := t ← nt_make xv yv; Some (of_ntable t).

(** The search for the critical water saturation, SatFuncSimple.cpp:68-74: the
    first [i] from [i] on with krw[i] > 0; [n] are left. *)
Fixpoint scan_up (n i : nat) (krw : list R) : option (option nat) :=
  match n with
  | 0%nat => Some None
  | S n => k ← krw !! i; if Rlt_dec 0 k then Some (Some i) else scan_up n (i + 1) krw
  end.
(** The search for the critical oil saturation, SatFuncSimple.cpp:75-81: the last
    [i] up to [i] with krow[i-1] > 0. *)
Fixpoint scan_down (i : nat) (krow : list R) : option (option nat) :=
  match i with
  | 0%nat => Some None
  | S i' => k ← krow !! i'; if Rlt_dec 0 k then Some (Some i) else scan_down i' krow
  end.

Section init.
Variable mk : list R → list R → option table.

(** What the part of init for water computes: SatFuncSimple.cpp:46-82 and 271-308;
    without the check of line 51-53 and without lines 61-81, SatFuncStone2.cpp:46-61
    and 238-253 and SatFuncGwseg.cpp:46-61 and 249-264.  The result also holds
    swco and swmax. *)
Definition init_water (m : model) (F : satfunc) (swof : list (list (list R))) (table_num : nat) : option (satfunc * R * R) :=
  t ← swof !! table_num;
  sw ← t !! 0%nat; krw ← t !! 1%nat; krow ← t !! 2%nat; pcow ← t !! 3%nat;
  kf ← head krw; kb ← last krow;
  _ ← (match m with Simple => if Req_EM_T kf 0 then if Req_EM_T kb 0 then Some () else None else None | _ => Some () end);
  krw_ ← mk sw krw; krow_ ← mk sw krow; pcow_ ← mk sw pcow;
  krocw ← krow !! 0%nat;
  swco ← sw !! 0%nat;
  p ← pos F Aqua;
  smin ← upd (sf_smin F) p swco;
  swmax ← last sw;
  smax ← upd (sf_smax F) p swmax;
  match m with
  | Simple =>
      krwmax ← last krw; kromax ← head krow;
      up ← scan_up (length sw - 1) 1 krw;
      '(swcr, krorw) ← (match up with Some i => a ← sw !! (i - 1)%nat; b ← krow !! (i - 1)%nat; Some (a, b) | None => Some (swmax, kromax) end);
      down ← scan_down (length sw - 1) krow;
      '(sowcr, krwr) ← (match down with Some i => a ← sw !! i; b ← krw !! i; Some (1 - a, b) | None => Some (1 - swco, krwmax) end);
      Some (SatFunc smin smax krwmax kromax swcr krwr sowcr krorw (sf_pu F) krw_ krow_ pcow_ (sf_krg F) (sf_krog F) (sf_pcog F) krocw, swco, swmax)
  | _ =>
      Some (SatFunc smin smax (sf_krwmax F) (sf_kromax F) (sf_swcr F) (sf_krwr F) (sf_sowcr F) (sf_krorw F) (sf_pu F) krw_ krow_ pcow_ (sf_krg F) (sf_krog F) (sf_pcog F) krocw, swco, swmax)
  end.
(** What the part of init for gas computes: SatFuncSimple.cpp:83-98 and 309-324,
    SatFuncStone2.cpp:62-74 and 254-268, SatFuncGwseg.cpp:62-74 and 265-279. *)
Definition init_gas (F : satfunc) (sgof : list (list (list R))) (table_num : nat) (swco : R) : option satfunc :=
  t ← sgof !! table_num;
  sg ← t !! 0%nat; krg ← t !! 1%nat; krog ← t !! 2%nat; pcog ← t !! 3%nat;
  krg_ ← mk sg krg; krog_ ← mk sg krog; pcog_ ← mk sg pcog;
  sgco ← sg !! 0%nat;
  p ← pos F Vapour;
  smin ← upd (sf_smin F) p sgco;
  sgmax ← last sg;
  if Rlt_dec (/ 1000) (Rabs (sgmax + swco - 1)) then None else
  smax ← upd (sf_smax F) p sgmax;
  Some (SatFunc smin smax (sf_krwmax F) (sf_kromax F) (sf_swcr F) (sf_krwr F) (sf_sowcr F) (sf_krorw F) (sf_pu F)
    (sf_krw F) (sf_krow F) (sf_pcow F) krg_ krog_ pcog_ (sf_krocw F)).
(** init: SatFuncSimple.cpp:36-102 and 261-328, SatFuncStone2.cpp:36-78 and 230-272,
    SatFuncGwseg.cpp:36-78 and 241-283.  [F0] is the object before, with whatever
    it contains. *)
Definition sat_init (m : model) (F0 : satfunc) (swof sgof : list (list (list R))) (table_num : nat) (pu : phase_usage) : option satfunc :=
  let F := SatFunc (sf_smin F0) (sf_smax F0) (sf_krwmax F0) (sf_kromax F0) (sf_swcr F0) (sf_krwr F0) (sf_sowcr F0) (sf_krorw F0) pu
    (sf_krw F0) (sf_krow F0) (sf_pcow F0) (sf_krg F0) (sf_krog F0) (sf_pcog F0) (sf_krocw F0) in
  ua ← used F Aqua;
  '(F, swco, swmax) ← (if (ua : bool) then init_water m F swof table_num else Some (F, 0, 1));
  ug ← used F Vapour;
  F ← (if (ug : bool) then init_gas F sgof table_num swco else Some F);
  p ← pos F Liquid;
  smin ← upd (sf_smin F) p (1 - swmax);
  smax ← upd (sf_smax F) p (1 - swco);
  Some (SatFunc smin smax (sf_krwmax F) (sf_kromax F) (sf_swcr F) (sf_krwr F) (sf_sowcr F) (sf_krorw F) (sf_pu F)
    (sf_krw F) (sf_krow F) (sf_pcow F) (sf_krg F) (sf_krog F) (sf_pcog F) (sf_krocw F)).
End init.
