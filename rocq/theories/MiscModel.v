(** Model of opm/core/utility/miscUtilities.cpp:38-400: sums over the cells.
    Doubles are real numbers: no rounding. An access outside a vector, a failed
    assertion, an exception and a division by zero are [None]. Relative
    permeabilities (IncompPropertiesInterface::relperm) are an unknown function
    of the saturations of one cell and its number; that it works cell by cell is
    an assumption. *)
From Coq Require Import Reals Lra.
From Verif Require Import Base LoopModel AccModel TableModel GridModel WellsModel.
Local Open Scope R_scope.

(** vector::resize. *)
Definition resize (n : nat) (l : list R) : list R := take n l ++ replicate (n - length l) 0.

(** computePorevolume, miscUtilities.cpp:42-52; std::transform. *)
Definition compute_porevolume (nc : nat) (volumes porosity porevol : list R) : option (list R) :=
  for_loop nc 0 (λ i pv, p ← porosity !! i; v ← volumes !! i; upd pv i (p * v)) (resize nc porevol).
(** computePorevolume, miscUtilities.cpp:61-72; [mult] is poroMult. *)
Definition compute_porevolume_comp (mult : R → R) (nc : nat) (volumes porosity pressure porevol : list R) : option (list R) :=
  for_loop nc 0 (λ i pv, p ← porosity !! i; v ← volumes !! i; q ← pressure !! i; upd pv i (p * v * mult q)) (resize nc porevol).

(** [sat_vol[p] += pv[c]*s[np*c + p]] for all p. *)
Definition sat_cell (np : nat) (pv s : list R) (c : nat) (vol : list R) : option (list R) :=
  for_loop np 0 (λ p vol, v ← pv !! c; x ← s !! (np * c + p)%nat; addto vol p (v * x)) vol.
(** computeSaturatedVol, miscUtilities.cpp:101-116; [sat_vol] is the array
    behind the pointer. *)
Definition compute_saturated_vol (pv s sat_vol : list R) : option (list R) :=
  if decide (length pv = 0%nat) then None else
  let np := (length s / length pv)%nat in
  if decide (length s = length pv * np)%nat then
    vol ← for_loop np 0 (λ p vol, upd vol p 0) sat_vol;
    for_loop (length pv) 0 (sat_cell np pv s) vol
  else None.
(** computeAverageSat, miscUtilities.cpp:126-149. *)
Definition compute_average_sat (pv s aver_sat : list R) : option (list R) :=
  if decide (length pv = 0%nat) then None else
  let np := (length s / length pv)%nat in
  if decide (length s = length pv * np)%nat then
    vol ← for_loop np 0 (λ p vol, upd vol p 0) aver_sat;
    '(tot, vol) ← for_loop (length pv) 0 (λ c '(tot, vol), v ← pv !! c; vol ← sat_cell np pv s c vol; Some (tot + v, vol)) (0, vol);
    for_loop np 0 (λ p vol, x ← vol !! p; q ← rdiv x tot; upd vol p q) vol
  else None.

Section props.
Variable relperm : list R → nat → list R.
Variables visc rho : list R.

(** The body for a cell with outflow, miscUtilities.cpp:184-194. *)
Definition produce_cell (np : nat) (s : list R) (dt q : R) (c : nat) (produced : list R) : option (list R) :=
  let flux := - q * dt in
  sat ← slice s (np * c) np;
  '(tot, mob) ← for_loop np 0 (λ p '(tot, mob), x ← mob !! p; v ← visc !! p; m ← rdiv x v; mob ← upd mob p m; Some (tot + m, mob)) (0, relperm sat c);
  for_loop np 0 (λ p produced, m ← mob !! p; q ← rdiv m tot; addto produced p (q * flux)) produced.
(** computeInjectedProduced, miscUtilities.cpp:164-197. *)
Definition compute_injected_produced (s src : list R) (dt : R) (injected produced : list R) : option (list R * list R) :=
  if decide (length src = 0%nat) then None else
  let np := (length s / length src)%nat in
  if decide (length s = length src * np)%nat then
    injected ← for_loop np 0 (λ p vol, upd vol p 0) injected;
    produced ← for_loop np 0 (λ p vol, upd vol p 0) produced;
    for_loop (length src) 0 (λ c '(injected, produced),
      q ← src !! c;
      if Rlt_dec 0 q then injected ← addto injected 0 (q * dt); Some (injected, produced)
      else if Rlt_dec q 0 then produced ← produce_cell np s dt q c produced; Some (injected, produced)
      else Some (injected, produced)) (injected, produced)
  else None.

(** computePhaseMobilities, miscUtilities.cpp:267-289. *)
Definition compute_phase_mobilities (np : nat) (cells : list nat) (s : list R) : option (list R) :=
  if decide (length s = length cells * np)%nat then
    kr ← for_loop (length cells) 0 (λ i kr, c ← cells !! i; sat ← slice s (np * i) np; memcpy kr (np * i) (relperm sat c)) (replicate (length cells * np) 0);
    for_loop (length cells) 0 (λ i lam, for_loop np 0 (λ p lam, x ← lam !! (i * np + p)%nat; m ← visc !! p; q ← rdiv x m; upd lam (i * np + p) q) lam) kr
  else None.
(** computeTotalMobility, miscUtilities.cpp:206-225. *)
Definition compute_total_mobility (np : nat) (cells : list nat) (s : list R) : option (list R) :=
  pmobc ← compute_phase_mobilities np cells s;
  for_loop (length cells) 0 (λ c tot, for_loop np 0 (λ p tot, x ← pmobc !! (c * np + p)%nat; addto tot c x) tot) (replicate (length cells) 0).
(** computeTotalMobilityOmega, miscUtilities.cpp:234-259. *)
Definition compute_total_mobility_omega (np : nat) (cells : list nat) (s : list R) : option (list R * list R) :=
  pmobc ← compute_phase_mobilities np cells s;
  for_loop (length cells) 0 (λ c '(tot, omega),
    '(tot, omega) ← for_loop np 0 (λ p '(tot, omega), x ← pmobc !! (c * np + p)%nat; tot ← addto tot c x; r ← rho !! p; omega ← addto omega c (x * r); Some (tot, omega)) (tot, omega);
    o ← omega !! c; t ← tot !! c; q ← rdiv o t; omega ← upd omega c q; Some (tot, omega)) (replicate (length cells) 0, replicate (length cells) 0).
(** computeFractionalFlow, miscUtilities.cpp:297-315. *)
Definition compute_fractional_flow (np : nat) (cells : list nat) (s : list R) : option (list R) :=
  ff ← compute_phase_mobilities np cells s;
  for_loop (length cells) 0 (λ i ff,
    sum ← for_loop np 0 (λ p sum, x ← ff !! (i * np + p)%nat; Some (sum + x)) 0;
    for_loop np 0 (λ p ff, x ← ff !! (i * np + p)%nat; q ← rdiv x sum; upd ff (i * np + p) q) ff) ff.
End props.

Section transport.
Context {name_t : Type}.
Variable g : ugrid.
Variables src flux : list R.
Variable frac : R.
(** The inner loop over the faces of a cell, miscUtilities.cpp:348-360. *)
Definition source_face (c hf : nat) (ts : list R) : option (list R) :=
  f ← u_cellfaces g !! hf;
  a ← u_facecells g !! (2 * f)%nat; b ← u_facecells g !! (2 * f + 1)%nat;
  influx ← (if decide (a = Z.of_nat c ∧ b = (-1)%Z) then x ← flux !! f; Some (- x)
    else if decide (a = (-1)%Z ∧ b = Z.of_nat c) then flux !! f else Some 0);
  if Req_EM_T influx 0 then Some ts else addto ts c (if Rlt_dec 0 influx then frac * influx else influx).
(** The loop over the cells, miscUtilities.cpp:345-361. *)
Definition source_cell (c : nat) (ts : list R) : option (list R) :=
  ts ← upd ts c 0;
  q ← src !! c;
  ts ← addto ts c (if Rlt_dec 0 q then frac * q else q);
  b ← u_facepos g !! c; e ← u_facepos g !! S c;
  for_loop (e - b) b (source_face c) ts.
(** A perforation, miscUtilities.cpp:373-388. *)
Definition source_perf (W : @wells R name_t) (perfrates : list R) (w perf : nat) (ts : list R) : option (list R) :=
  cell ← w_cells W !! perf;
  rate ← perfrates !! perf;
  rate ← (if Rlt_dec 0 rate then
      t ← w_type W !! w;
      if decide (t = INJECTOR) then
        f0 ← w_comp_frac W !! (2 * w)%nat; f1 ← w_comp_frac W !! (2 * w + 1)%nat;
        if Rlt_dec (Rabs (f0 + f1 - 1)) (1 / 1000000) then Some (rate * f0) else None
      else Some 0
    else Some rate);
  if decide (cell < 0)%Z then None else addto ts (Z.to_nat cell) rate.
(** computeTransportSource, miscUtilities.cpp:334-392; [None] for [W] is NULL. *)
Definition compute_transport_source (W : option (@wells R name_t)) (perfrates ts : list R) : option (list R) :=
  ts ← for_loop (u_nc g) 0 source_cell (resize (u_nc g) ts);
  match W with
  | None => Some ts
  | Some W =>
    if decide (w_np W = 2%nat) then
      for_loop (w_nw W) 0 (λ w ts, b ← w_connpos W !! w; e ← w_connpos W !! S w; for_loop (e - b) b (source_perf W perfrates w) ts) ts
    else None
  end.
End transport.
