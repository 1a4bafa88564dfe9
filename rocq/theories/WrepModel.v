(** Model of opm/core/utility/miscUtilities.cpp:451-696: sources, pressure drops,
    flow rates and reports of wells.

    Simplifications valid for the whole file:
    - doubles are real numbers: no rounding; dividing by zero is [None];
    - an access outside an array, a failed assertion and an exception are [None];
    - relative permeabilities and viscosities (BlackoilPropertiesInterface,
      IncompPropertiesInterface) are unknown functions of the values of one cell
      and its number;
    - output to streams and messages are not modelled. *)
From Coq Require Import Reals.
From Verif Require Import Base LoopModel AccModel TableModel WellsModel MiscModel.
Local Open Scope R_scope.

Section wells.
Context {name_t : Type}.
Variable W : @wells R name_t.

(** A cell number used as an index. *)
Definition cell_ix (z : Z) : option nat := if decide (z < 0)%Z then None else Some (Z.to_nat z).

(** The body of the loop of wellsToSrc, miscUtilities.cpp:459-484. *)
Definition well_src (w : nat) (src : list R) : option (list R) :=
  oc ← w_ctrls W !! w; c ← oc;
  cur ← cell_ix (c_current c);
  ty ← c_type c !! cur;
  if decide (ty = RESERVOIR_RATE) then
    e ← w_connpos W !! (w + 1)%nat; b ← w_connpos W !! w;
    if decide (Z.of_nat e - Z.of_nat b = 1)%Z then
      _ ← for_loop (w_np W) 0 (λ p t, x ← c_distr c !! (w_np W * cur + p)%nat; if Req_EM_T x 1 then Some t else None) ();
      flow ← c_target c !! cur;
      ty ← w_type W !! w;
      flow ← (if decide (ty = INJECTOR) then f ← w_comp_frac W !! (w_np W * w + 0)%nat; Some (flow * f) else Some flow);
      z ← w_cells W !! b;
      cell ← cell_ix z;
      upd src cell flow
    else None
  else None.
(** wellsToSrc, miscUtilities.cpp:452-485. *)
Definition wells_to_src (num_cells : nat) (src : list R) : option (list R) :=
  if decide (w_np W = 2%nat) then for_loop (w_nw W) 0 well_src (resize num_cells src) else None.

(** computeWDP, miscUtilities.cpp:488-531; the two cases of [per_grid_cell] only
    differ in the place [at_] of the saturations. [depth] is cell_centroids. *)
Definition wdp_perf (np : nat) (saturations densities depth : list R) (gravity : R) (per_grid_cell : bool) (i j : nat) (wdp : list R) : option (list R) :=
  depth_ref ← w_depth W !! i;
  z ← w_cells W !! j;
  cell ← cell_ix z;
  cell_depth ← depth !! (3 * cell + 2)%nat;
  let at_ := if per_grid_cell then (np * cell)%nat else (j * np)%nat in
  sum ← for_loop np 0 (λ p t, s ← saturations !! (at_ + p)%nat; Some (t + s)) 0;
  let sum := if Req_EM_T sum 0 then 1 else sum in
  density ← for_loop np 0 (λ p t, s ← saturations !! (at_ + p)%nat; r ← densities !! p; q ← rdiv (s * r) sum; Some (t + q)) 0;
  Some (wdp ++ [density * (cell_depth - depth_ref) * gravity]).
(** The loops of computeWDP, miscUtilities.cpp:495-530. *)
Definition compute_wdp (ncells : nat) (saturations densities depth : list R) (gravity : R) (per_grid_cell : bool) (wdp : list R) : option (list R) :=
  n ← (if per_grid_cell then Some ncells else w_connpos W !! w_nw W);
  if decide (n = 0%nat) then None else
  let np := (length saturations / n)%nat in
  for_loop (w_nw W) 0 (λ i wdp, b ← w_connpos W !! i; e ← w_connpos W !! (i + 1)%nat;
    for_loop (e - b) b (wdp_perf np saturations densities depth gravity per_grid_cell i) wdp) wdp.

(** computeFlowRatePerWell, miscUtilities.cpp:534-546. *)
Definition compute_flow_rate_per_well (rates : list R) (per_well : list R) : option (list R) :=
  '(_, per_well) ← for_loop (w_nw W) 0 (λ w '(ix, per_well),
    e ← w_connpos W !! (w + 1)%nat; b ← w_connpos W !! w;
    '(ix, sum) ← for_loop (e - b) 0 (λ _ '(ix, sum), q ← rates !! ix; Some ((ix + 1)%nat, sum + q)) (ix, 0);
    Some (ix, per_well ++ [sum])) (0%nat, per_well);
  Some per_well.

(** computePhaseFlowRatesPerWell, miscUtilities.cpp:555-578. *)
Definition compute_phase_flow_rates_per_well (rates fractional_flows flows : list R) : option (list R) :=
  let np := w_np W in
  n ← w_connpos W !! w_nw W;
  if decide (length rates = n) then
    for_loop (w_nw W) 0 (λ wix flows,
      flows ← for_loop np 0 (λ phase flows, upd flows (wix * np + phase) 0) flows;
      b ← w_connpos W !! wix; e ← w_connpos W !! (wix + 1)%nat;
      for_loop (e - b) b (λ i flows,
        z ← w_cells W !! i; cell ← cell_ix z;
        for_loop np 0 (λ phase flows, q ← rates !! i; f ← fractional_flows !! (cell * np + phase)%nat; addto flows (wix * np + phase) (q * f)) flows) flows)
      (resize (w_nw W * np) flows)
  else None.

(** unit::day and unit::barsa, Units.hpp:93-96 and 136; rates are converted by
    convert::to, Units.hpp:214-217. *)
Definition day : R := 86400.
Definition barsa : R := 100000.
(** The share of the first phase in a cell, miscUtilities.cpp:623-631 and
    673-683. *)
Definition first_share (np : nat) (mob visc : list R) : option R :=
  '(mob, tmob) ← for_loop np 0 (λ i '(mob, tmob), m ← mob !! i; v ← visc !! i; m ← rdiv m v; mob ← upd mob i m; Some (mob, tmob + m)) (mob, 0);
  m ← mob !! 0%nat; rdiv m tmob.
(** The loop over the wells of both WellReport::push, miscUtilities.cpp:608-640
    and 658-691. [fracflow] is the computation for a producing perforation. *)
Definition report_perf (rates : list R) (fracflow : nat → option R) (perf : nat) (s : R * R) : option (R * R) :=
  let '(total, water) := s in
  q ← rates !! perf;
  perf_rate ← rdiv q (1 / day);
  let total := total + perf_rate in
  if Rlt_dec 0 perf_rate then f ← w_comp_frac W !! 0%nat; Some (total, water + perf_rate * f)
  else z ← w_cells W !! perf; cell ← cell_ix z; f ← fracflow cell; Some (total, water + perf_rate * f).
(** The rest of both WellReport::push, miscUtilities.cpp:596-642 and 652-694. *)
Definition report_push (fracflow : nat → option R) (time : R) (well_bhp rates : list R) (data : list (list R)) : option (list (list R)) :=
  let nw := length well_bhp in
  if decide (nw = w_nw W) then
    data_now ← for_loop nw 0 (λ w data_now,
      bhp ← well_bhp !! w;
      b ← w_connpos W !! w; e ← w_connpos W !! (w + 1)%nat;
      '(total, water) ← for_loop (e - b) b (report_perf rates fracflow) (0, 0);
      cut ← (if Req_EM_T total 0 then Some 0 else rdiv water total);
      Some (data_now ++ [bhp / barsa; total; cut])) [time / day];
    Some (data ++ [data_now])
  else None.
Variable relperm : list R → nat → list R.
(** WellReport::push for incompressible fluids, miscUtilities.cpp:590-642. The
    saturations of a cell start at twice its number, whatever [np]. *)
Definition report_push_incomp (np : nat) (visc saturation : list R) (time : R) (well_bhp rates : list R) (data : list (list R)) : option (list (list R)) :=
  if decide (3 < np)%nat then None else
  report_push (λ cell, sat ← slice saturation (2 * cell) np; first_share np (relperm sat cell) visc) time well_bhp rates data.
Variable viscosity : R → list R → nat → list R.
(** WellReport::push for black-oil fluids, miscUtilities.cpp:647-694. *)
Definition report_push_blackoil (np : nat) (p z s : list R) (time : R) (well_bhp rates : list R) (data : list (list R)) : option (list (list R)) :=
  if decide (3 < np)%nat then None else
  report_push (λ cell, sat ← slice s (np * cell) np; pr ← p !! cell; zc ← slice z (np * cell) np; first_share np (relperm sat cell) (viscosity pr zc cell)) time well_bhp rates data.
End wells.
