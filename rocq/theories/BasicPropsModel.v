(** Model of opm/core/props/satfunc/SaturationPropsBasic.cpp,
    opm/core/props/pvt/PvtPropertiesBasic.cpp and
    opm/core/props/IncompPropertiesBasic.cpp.

    Simplifications valid for the whole file: double is modelled by R; a parameter
    group is what getDefault finds in it; a null pointer is [None] where the code
    tests for it; functions that may throw have [Some None] for an exception and
    [None] for undefined behaviour. *)
From Coq Require Import Reals String.
From Verif Require Import Base LoopModel RdeckModel.
Local Open Scope R_scope.

(** RelPermFunc, SaturationPropsBasic.hpp:48. *)
Inductive kr_fun := KrConstant | KrLinear | KrQuadratic.
(** kr of the three classes, SaturationPropsBasic.cpp:35-38, 47-50 and 59-62. *)
Definition kr_of (f : kr_fun) (s : R) : R := match f with KrConstant => 1 | KrLinear => s | KrQuadratic => s * s end.
(** dkrds of the three classes, SaturationPropsBasic.cpp:39-42, 51-54 and 63-66. *)
Definition dkr_of (f : kr_fun) (s : R) : R := match f with KrConstant => 0 | KrLinear => 1 | KrQuadratic => 2 * s end.

(** std::fill(p + lo, p + hi, v). *)
Definition fill (l : list R) (lo hi : nat) (v : R) : option (list R) :=
  for_loop (hi - lo) lo (λ i l, upd l i v) l.

(** evalAllKrDeriv, SaturationPropsBasic.cpp:70-92. *)
Definition eval_all (f : kr_fun) (n np : nat) (s kr : list R) (dkrds : option (list R)) : option (list R * option (list R)) :=
  match dkrds with
  | None => kr ← for_loop (n * np) 0 (λ i kr, x ← s !! i; upd kr i (kr_of f x)) kr; Some (kr, None)
  | Some dkr =>
      st ← for_loop n 0 (λ i st,
        let '(kr, dkr) := (st : list R * list R) in
        dkr ← fill dkr (i * np * np) ((i + 1) * np * np) 0;
        for_loop np 0 (λ phase st,
          let '(kr, dkr) := (st : list R * list R) in
          x ← s !! (i * np + phase)%nat;
          kr ← upd kr (i * np + phase) (kr_of f x);
          dkr ← upd dkr (i * np * np + phase * np + phase) (dkr_of f x);
          Some (kr, dkr)) (kr, dkr)) (kr, dkr);
      Some (fst st, Some (snd st))
  end.

(** Data members, SaturationPropsBasic.hpp:99-100. *)
Record satb := SatB { sb_np : nat; sb_fun : kr_fun }.
(** init from parameters, SaturationPropsBasic.cpp:111-132: [None] is an exception;
    [num] and [rpf] are num_phases and relperm_func, if given. *)
Definition sat_init (num : option Z) (rpf : option string) : option satb :=
  let num := default 2%Z num in
  if decide (num > 2 ∨ num < 1)%Z then None
  else let rpf := default "Linear"%string rpf in
    if String.eqb rpf "Constant" then (if decide (num = 1)%Z then Some (SatB (Z.to_nat num) KrConstant) else None)
    else if String.eqb rpf "Linear" then Some (SatB (Z.to_nat num) KrLinear)
    else if String.eqb rpf "Quadratic" then Some (SatB (Z.to_nat num) KrQuadratic)
    else None.
(** relperm, SaturationPropsBasic.cpp:155-179. *)
Definition sat_relperm (b : satb) (n : nat) (s kr : list R) (dkrds : option (list R)) := eval_all (sb_fun b) n (sb_np b) s kr dkrds.
(** capPress, SaturationPropsBasic.cpp:193-202. *)
Definition sat_cap (b : satb) (n : nat) (pc : list R) (dpcds : option (list R)) : option (list R * option (list R)) :=
  pc ← fill pc 0 (sb_np b * n) 0;
  match dpcds with
  | None => Some (pc, None)
  | Some d => d ← fill d 0 (sb_np b * sb_np b * n) 0; Some (pc, Some d)
  end.
(** satRange, SaturationPropsBasic.cpp:210-216. *)
Definition sat_range (b : satb) (n : nat) (smin smax : list R) : option (list R * list R) :=
  smin ← fill smin 0 (sb_np b * n) 0; smax ← fill smax 0 (sb_np b * n) 1; Some (smin, smax).

(** Data members, PvtPropertiesBasic.hpp:93-95. *)
Record pvtb := PvtB { pb_rho : list R; pb_mu : list R; pb_fvf : list R }.
(** init from parameters, PvtPropertiesBasic.cpp:36-61; [rho] and [mu] are rho1,
    rho2, rho3 and mu1, mu2, mu3, if given; [cP] is centi*Poise; kgpm3 is 1. *)
Definition pvt_init_param (cP : R) (num : option Z) (rho mu : nat → option R) : option pvtb :=
  let num := default 2%Z num in
  if decide (num > 3 ∨ num < 1)%Z then None
  else let np := Z.to_nat num in
    Some (PvtB (map (λ p, 1 * default 1000 (rho p)) (seq 0 np)) (map (λ p, cP * default 1 (mu p)) (seq 0 np)) (replicate np 1)).
(** init from vectors, PvtPropertiesBasic.cpp:63-75. *)
Definition pvt_init (num : Z) (rho mu : list R) : option pvtb :=
  if decide (num > 3 ∨ num < 1)%Z then None else Some (PvtB rho mu (replicate (Z.to_nat num) 1)).
(** numPhases, PvtPropertiesBasic.cpp:83-86. *)
Definition pvt_np (b : pvtb) : nat := length (pb_rho b).
(** The loops of mu and B, PvtPropertiesBasic.cpp:95-101 and 109-115. *)
Definition per_phase (np n : nat) (vals out : list R) : option (list R) :=
  for_loop np 0 (λ phase out, for_loop n 0 (λ i out, v ← vals !! phase; upd out (np * i + phase) v) out) out.
(** mu, PvtPropertiesBasic.cpp:90-102. *)
Definition pvt_mu (b : pvtb) (n : nat) (out : list R) := per_phase (pvt_np b) n (pb_mu b) out.
(** B, PvtPropertiesBasic.cpp:104-116. *)
Definition pvt_B (b : pvtb) (n : nat) (out : list R) := per_phase (pvt_np b) n (pb_fvf b) out.
(** dBdp, PvtPropertiesBasic.cpp:118-133. *)
Definition pvt_dBdp (b : pvtb) (n : nat) (outB outD : list R) : option (list R * list R) :=
  let np := pvt_np b in
  for_loop np 0 (λ phase st, for_loop n 0 (λ i st,
    let '(outB, outD) := (st : list R * list R) in
    v ← pb_fvf b !! phase; outB ← upd outB (np * i + phase) v; outD ← upd outD (np * i + phase) 0; Some (outB, outD)) st) (outB, outD).
(** R and dRdp, PvtPropertiesBasic.cpp:136-154. *)
Definition pvt_R (b : pvtb) (n : nat) (out : list R) := fill out 0 (n * pvt_np b) 0.
Definition pvt_dRdp (b : pvtb) (n : nat) (outR outD : list R) : option (list R * list R) :=
  outR ← fill outR 0 (n * pvt_np b) 0; outD ← fill outD 0 (n * pvt_np b) 0; Some (outR, outD).

(** Data members, IncompPropertiesBasic.hpp:158-161. *)
Record incomp := Incomp { in_poro : list R; in_perm : list R; in_pvt : pvtb; in_sat : satb; in_visc : list R }.
(** The common end of both constructors, IncompPropertiesBasic.cpp:42-47 and 62-67. *)
Definition incomp_end (rock : list R * list R) (pvt : pvtb) (sat : satb) : option (option incomp) :=
  if decide (pvt_np pvt ≠ sb_np sat) then Some None
  else visc ← pvt_mu pvt 1 (replicate (pvt_np pvt) 0); Some (Some (Incomp (fst rock) (snd rock) pvt sat visc)).
(** Constructor from parameters, IncompPropertiesBasic.cpp:31-48; [mD] is
    milli*darcy. *)
Record params := Params { pa_num : option Z; pa_rpf : option string; pa_poro : option R; pa_perm : option R; pa_rho : nat → option R; pa_mu : nat → option R }.
Definition incomp_param (cP mD : R) (pa : params) (dim nc : nat) : option (option incomp) :=
  rock ← rock_basic dim nc (default 1 (pa_poro pa)) (default 100 (pa_perm pa) * mD);
  match pvt_init_param cP (pa_num pa) (pa_rho pa) (pa_mu pa) with
  | None => Some None
  | Some pvt => match sat_init (pa_num pa) (pa_rpf pa) with None => Some None | Some sat => incomp_end rock pvt sat end
  end.
(** Constructor from arguments, IncompPropertiesBasic.cpp:50-68, with
    SaturationPropsBasic.hpp:51-56. *)
Definition incomp_args (num : Z) (f : kr_fun) (rho mu : list R) (por perm : R) (dim nc : nat) : option (option incomp) :=
  rock ← rock_basic dim nc por perm;
  match pvt_init num rho mu with
  | None => Some None
  | Some pvt => incomp_end rock pvt (SatB (Z.to_nat num) f)
  end.
